(** C79: values put into a document come back; what converting a leaf gives. *)
From Coq Require Import Ascii String Sorted Reals.
From Verif Require Import Base TypeModel PropTypes StreamModel JsonModel PropJson DumpModel PropDump JsonConvModel.
Local Open Scope list_scope.
Local Open Scope nat_scope.
Local Notation length := List.length.

(** *** Specification *)
Definition c_int := mkIty true 32.
Definition c_unsigned := mkIty false 32.
Definition c_long := mkIty true 64.
Definition c_ulong := mkIty false 64.
Definition int_type (ty : ity) : Prop := (2 <= it_bits ty)%Z.
Definition fits (ty : ity) (n : Z) : Prop :=
  if it_signed ty then (- 2 ^ (it_bits ty - 1) <= n < 2 ^ (it_bits ty - 1))%Z else (0 <= n < 2 ^ it_bits ty)%Z.
Definition is_space (c : ascii) : Prop := In c [" "; "009"; "010"; "011"; "012"; "013"]%char.
Definition blank (s : text) : Prop := Forall is_space s.
(** White space, a sign or none, digits or none, and a rest that does not go on with a digit;
    without sign and digits the rest starts with something else than white space or a sign. *)
Definition starts (s : text) (neg : bool) (ds rest : text) : Prop :=
  exists ws sg, s = ws ++ sg ++ ds ++ rest /\ blank ws /\ all_digits ds /\
    (if neg then sg = txt "-" else sg = txt "+" \/ sg = []) /\
    match rest with [] => sg ++ ds <> [] | c :: _ => ~ is_digit c /\ (sg ++ ds = [] -> ~ is_space c /\ c <> "-"%char /\ c <> "+"%char) end.
(** The number of the type the digits stand for *)
Definition wrap (ty : ity) (neg : bool) (n : Z) : Z :=
  if it_signed ty then Z.max (- 2 ^ (it_bits ty - 1)) (Z.min (if neg then - n else n) (2 ^ (it_bits ty - 1) - 1))%Z
  else if (2 ^ it_bits ty <=? n)%Z then (2 ^ it_bits ty - 1)%Z
  else if neg && (0 <? n)%Z then (2 ^ it_bits ty - n)%Z else n.
Definition too_big (ty : ity) (neg : bool) (n : Z) : Prop :=
  if it_signed ty then ~ fits ty (if neg then - n else n)%Z else (2 ^ it_bits ty <= n)%Z.

(** *** Texts *)
Lemma space_iff c : range "009" "013" c || Ascii.eqb c " " = true <-> is_space c.
Proof.
  unfold is_space. split.
  - intros E. destruct c as [[] [] [] [] [] [] [] []]; vm_compute in E; try discriminate E; vm_compute; tauto.
  - intros [<-|[<-|[<-|[<-|[<-|[<-|[]]]]]]]; reflexivity.
Qed.
Lemma skip_blank ws s : blank ws -> skip_space (ws ++ s) = skip_space s.
Proof. induction ws as [|c ws IH]; intros B; [reflexivity|]. inversion B; subst. cbn [app skip_space]. rewrite (proj2 (space_iff c)) by assumption. auto. Qed.
Lemma skip_split s : exists ws, s = ws ++ skip_space s /\ blank ws /\ (forall c w, skip_space s = c :: w -> ~ is_space c).
Proof.
  induction s as [|c s IH]; [exists []; repeat split; [constructor|intros; discriminate]|].
  cbn [skip_space]. destruct (range "009" "013" c || Ascii.eqb c " ") eqn:E.
  - destruct IH as (ws & E1 & B & N). exists (c :: ws). split; [cbn [app]; now rewrite <- E1|]. split; [constructor; [now apply space_iff|exact B]|exact N].
  - exists []. split; [reflexivity|]. split; [constructor|]. intros c' w [= <- <-] I. apply space_iff in I. congruence.
Qed.
Lemma skip_stop c w : ~ is_space c -> skip_space (c :: w) = c :: w.
Proof. intros N. cbn [skip_space]. destruct (range "009" "013" c || Ascii.eqb c " ") eqn:E; [|reflexivity]. apply space_iff in E. contradiction. Qed.
Lemma digit_plain c : is_digit c -> ~ is_space c /\ c <> "-"%char /\ c <> "+"%char.
Proof. unfold is_digit. cbn. intros [<-|[<-|[<-|[<-|[<-|[<-|[<-|[<-|[<-|[<-|[]]]]]]]]]]]; (split; [unfold is_space; cbn; intuition discriminate|split; discriminate]). Qed.
Lemma blank_iff s : blank s <-> skip_space s = [].
Proof.
  split; intros B.
  - rewrite <- (app_nil_r s). now rewrite skip_blank.
  - destruct (skip_split s) as (ws & E & Bw & _). rewrite B, app_nil_r in E. now rewrite E.
Qed.
Lemma digits_split s : exists ds w, s = ds ++ w /\ all_digits ds /\ take_digits s = (ds, w) /\ (forall c t, w = c :: t -> ~ is_digit c).
Proof.
  induction s as [|c s IH]; [exists [], []; repeat split; [constructor|intros; discriminate]|].
  cbn [take_digits]. destruct (range "0" "9" c) eqn:E.
  - destruct IH as (ds & w & -> & A & T & N). exists (c :: ds), w. split; [reflexivity|]. split; [constructor; [now apply digit_range|exact A]|]. rewrite T. split; [reflexivity|exact N].
  - exists [], (c :: s). repeat split; [constructor|]. intros c' t [= <- <-] I. apply digit_range in I. congruence.
Qed.
Lemma take_digits_starts ds rest : all_digits ds -> match rest with [] => True | c :: _ => ~ is_digit c end -> take_digits (ds ++ rest) = (ds, rest).
Proof.
  induction ds as [|c ds IH]; intros A N.
  - destruct rest as [|c t]; [reflexivity|]. cbn [app take_digits]. destruct (range "0" "9" c) eqn:E; [apply digit_range in E; contradiction|reflexivity].
  - inversion A; subst. cbn [app take_digits]. rewrite (proj2 (digit_range c)) by assumption. now rewrite IH.
Qed.

(** *** Every text is blank or starts in exactly one way *)
Theorem c79_every_text : forall s, blank s \/ exists neg ds rest, starts s neg ds rest.
Proof.
  intros s. destruct (skip_split s) as (ws & E & B & N). destruct (skip_space s) as [|c w] eqn:K.
  - left. rewrite app_nil_r in E. now rewrite E.
  - right. specialize (N _ _ eq_refl).
    destruct (ascii_dec c "-") as [->|N1].
    + destruct (digits_split w) as (ds & r & -> & A & _ & Nr). exists true, ds, r, ws, (txt "-"). repeat (split; [easy|]).
      destruct r as [|c r]; [discriminate|]. split; [now apply (Nr c r)|discriminate].
    + destruct (ascii_dec c "+") as [->|N2].
      * destruct (digits_split w) as (ds & r & -> & A & _ & Nr). exists false, ds, r, ws, (txt "+"). repeat (split; [easy|]). split; [now left|].
        destruct r as [|c r]; [discriminate|]. split; [now apply (Nr c r)|discriminate].
      * destruct (digits_split (c :: w)) as (ds & r & E2 & A & _ & Nr). rewrite E2 in E. exists false, ds, r, ws, []. repeat (split; [easy|]). split; [now right|].
        destruct r as [|c' r].
        -- cbn [app]. intros ->. discriminate.
        -- split; [now apply (Nr c' r)|]. cbn [app]. intros ->. injection E2 as <- <-. auto.
Qed.
Lemma starts_parts s neg ds rest : starts s neg ds rest ->
  exists c w, skip_space s = c :: w /\ take_sign (c :: w) = (neg, ds ++ rest) /\ take_digits (ds ++ rest) = (ds, rest).
Proof.
  intros (ws & sg & -> & B & A & Sg & N).
  assert (T : take_digits (ds ++ rest) = (ds, rest)) by (apply take_digits_starts; [exact A|destruct rest; tauto]).
  rewrite skip_blank by exact B. destruct neg.
  - subst sg. exists "-"%char, (ds ++ rest). split; [reflexivity|]. now split.
  - destruct Sg as [->| ->].
    + exists "+"%char, (ds ++ rest). split; [reflexivity|]. now split.
    + cbn [app] in *. assert (P : forall c w, ds ++ rest = c :: w -> ~ is_space c /\ c <> "-"%char /\ c <> "+"%char).
      { intros c w E. destruct ds as [|d ds]; cbn [app] in E.
        - subst rest. destruct N as (_ & N). auto.
        - injection E as <- _. inversion A; subst. now apply digit_plain. }
      destruct (ds ++ rest) as [|c w] eqn:E.
      * apply app_eq_nil in E as (-> & ->). now destruct N.
      * destruct (P _ _ eq_refl) as (P1 & P2 & P3). exists c, w. split; [now apply skip_stop|]. split; [|exact T].
        cbn [take_sign]. now rewrite (proj2 (Ascii.eqb_neq _ _) P2), (proj2 (Ascii.eqb_neq _ _) P3).
Qed.
Theorem c79_one_way : forall s, (blank s -> forall neg ds rest, ~ starts s neg ds rest) /\
  forall neg ds rest neg' ds' rest', starts s neg ds rest -> starts s neg' ds' rest' -> neg' = neg /\ ds' = ds /\ rest' = rest.
Proof.
  intros s. split.
  - intros B neg ds rest H. destruct (starts_parts _ _ _ _ H) as (c & w & E & _). apply blank_iff in B. congruence.
  - intros neg ds rest neg' ds' rest' H1 H2.
    destruct (starts_parts _ _ _ _ H1) as (c & w & E & T & D). destruct (starts_parts _ _ _ _ H2) as (c' & w' & E' & T' & D').
    rewrite E in E'. injection E' as <- <-. rewrite T in T'. injection T' as T1 T2. rewrite <- T2, D in D'. injection D' as D1 D2. auto.
Qed.

(** *** The digit loop *)
Lemma digit_value_bound c : is_digit c -> (0 <= digit_value c <= 9)%Z.
Proof. unfold is_digit. cbn. intros [<-|[<-|[<-|[<-|[<-|[<-|[<-|[<-|[<-|[<-|[]]]]]]]]]]]; vm_compute; split; discriminate. Qed.
Definition value_from (r : Z) (s : text) : Z := fold_left (fun v c => v * 10 + digit_value c)%Z s r.
Lemma value_from_ge s : all_digits s -> forall r, (0 <= r)%Z -> (r <= value_from r s)%Z.
Proof.
  induction s as [|c s IH]; intros A r Hr; [cbn; lia|]. inversion A; subst. pose proof (digit_value_bound c ltac:(assumption)).
  cbn [value_from fold_left]. specialize (IH ltac:(assumption) (r * 10 + digit_value c)%Z ltac:(lia)). unfold value_from in IH. lia.
Qed.
Lemma value_from_big s : all_digits s -> forall r lim, (lim < r)%Z -> (0 <= r)%Z -> (lim < value_from r s)%Z.
Proof. intros A r lim H H1. pose proof (value_from_ge s A r H1). lia. Qed.
Lemma take_number_ovf lim ds rest : all_digits ds -> match rest with [] => True | c :: _ => ~ is_digit c end ->
  forall r, exists r', take_number lim (ds ++ rest) r true = (r', true, rest).
Proof.
  intros A N. induction ds as [|c ds IH]; intros r.
  - destruct rest as [|c t]; cbn [app take_number]; [eauto|]. destruct (range "0" "9" c) eqn:E; [apply digit_range in E; contradiction|eauto].
  - inversion A; subst. cbn [app take_number]. rewrite (proj2 (digit_range c)) by assumption. destruct (_ <? _)%Z; [now apply IH|cbn [orb]; now apply IH].
Qed.
Lemma take_number_spec lim ds rest : (0 <= lim)%Z -> all_digits ds -> match rest with [] => True | c :: _ => ~ is_digit c end ->
  forall r, (0 <= r <= lim)%Z ->
  exists r' o, take_number lim (ds ++ rest) r false = (r', o, rest) /\
    if o then (lim < value_from r ds)%Z else r' = value_from r ds /\ (value_from r ds <= lim)%Z.
Proof.
  intros L A N. induction ds as [|c ds IH]; intros r Hr.
  - exists r, false. split; [|split; [reflexivity|cbn; lia]]. destruct rest as [|c t]; cbn [app take_number]; [reflexivity|]. destruct (range "0" "9" c) eqn:E; [apply digit_range in E; contradiction|reflexivity].
  - inversion A as [|? ? Dc Ad]; subst. specialize (IH Ad). pose proof (digit_value_bound c Dc) as B. change (Z.of_nat (nat_of_ascii c) - 48)%Z with (digit_value c).
    cbn [app take_number]. rewrite (proj2 (digit_range c)) by exact Dc. change (Z.of_nat (nat_of_ascii c) - 48)%Z with (digit_value c).
    change (value_from r (c :: ds)) with (value_from (r * 10 + digit_value c) ds).
    pose proof (Z.div_mod lim 10). pose proof (Z.mod_pos_bound lim 10).
    destruct (Z.ltb_spec (lim / 10) r) as [G|G].
    + destruct (take_number_ovf lim ds rest Ad N r) as (r' & E). exists r', true. split; [exact E|]. apply value_from_big; [exact Ad|lia|lia].
    + cbn [orb]. destruct (Z.ltb_spec (lim - digit_value c) (r * 10)) as [G2|G2].
      * destruct (take_number_ovf lim ds rest Ad N (r * 10 + digit_value c)%Z) as (r' & E). exists r', true. split; [exact E|]. apply value_from_big; [exact Ad|lia|lia].
      * apply IH. lia.
Qed.

(** *** Conversion *)
Lemma pow_pos ty : int_type ty -> (2 <= 2 ^ (it_bits ty - 1))%Z /\ (2 ^ it_bits ty = 2 * 2 ^ (it_bits ty - 1))%Z.
Proof.
  intros T. split.
  - change 2%Z with (2 ^ 1)%Z at 1. apply Z.pow_le_mono_r; unfold int_type in T; lia.
  - rewrite <- Z.pow_succ_r by (unfold int_type in T; lia). f_equal. lia.
Qed.
Lemma digits_value_nonneg ds : all_digits ds -> (0 <= digits_value ds)%Z.
Proof. intros A. apply (value_from_ge ds A 0). lia. Qed.
Lemma convert_int_spec ty s neg ds rest : int_type ty -> starts s neg ds rest ->
  exists ok, convert_int ty s = (Some (wrap ty neg (digits_value ds)), ok) /\
    (ok = true <-> ds <> [] /\ rest = [] /\ ~ too_big ty neg (digits_value ds)).
Proof.
  intros T H. destruct (starts_parts _ _ _ _ H) as (c & w & E & Ts & Td). destruct H as (ws & sg & _ & _ & A & _ & N).
  assert (N' : match rest with [] => True | c :: _ => ~ is_digit c end) by (destruct rest; tauto).
  pose proof (digits_value_nonneg ds A) as V. destruct (pow_pos ty T) as (P & P2).
  unfold convert_int. rewrite E, Ts. set (lim := if neg && it_signed ty then _ else _).
  assert (L : (0 <= lim)%Z) by (unfold lim, it_min, it_max; destruct neg, (it_signed ty); cbn [andb]; lia).
  destruct (take_number_spec lim ds rest L A N' 0%Z ltac:(lia)) as (r' & o & En & Ho). rewrite En, Td. cbn [fst].
  change (value_from 0 ds) with (digits_value ds) in Ho. set (n := digits_value ds) in *.
  destruct ds as [|d ds].
  - eexists. split; [f_equal; f_equal|].
    + unfold n, wrap. cbn [digits_value fold_left]. destruct (it_signed ty), neg; cbn [andb]; rewrite ?(proj2 (Z.leb_gt (2 ^ it_bits ty) 0)) by lia; cbn; lia.
    + cbn [negb andb]. split; [discriminate|]. now intros (? & _).
  - eexists. split; [f_equal; f_equal|].
    + unfold wrap, lim, it_min, it_max in *. destruct o.
      * destruct (it_signed ty), neg; cbn [andb] in *; try lia; rewrite (proj2 (Z.leb_le _ _)) by lia; reflexivity.
      * destruct Ho as (-> & Ho). destruct (it_signed ty), neg; cbn [andb] in *; try lia; rewrite (proj2 (Z.leb_gt _ _)) by lia; [|reflexivity].
        destruct (Z.ltb_spec 0 n) as [Q|Q].
        -- rewrite Z.mod_opp_l_nz; [now rewrite Z.mod_small by lia|lia|rewrite Z.mod_small; lia].
        -- replace n with 0%Z by lia. reflexivity.
    + cbn [negb andb]. unfold too_big, fits, lim, it_min, it_max in *. destruct o.
      * cbn [negb andb]. split; [discriminate|]. intros (_ & _ & Q). exfalso. apply Q. destruct (it_signed ty), neg; cbn [andb] in *; try (intros (? & ?)); lia.
      * cbn [negb andb]. destruct Ho as (_ & Ho). destruct rest as [|c' t]; [|split; [discriminate|intros (_ & Q & _); discriminate]].
        split; [|reflexivity]. intros _. split; [discriminate|]. split; [reflexivity|]. destruct (it_signed ty), neg; cbn [andb] in *; lia.
Qed.
(** What as<T>() gives for the integer type T: an exception without leaf, nothing defined for a
    blank leaf, and the number the text starts with, brought into the type. *)
Theorem c79_outcome : forall ty d, int_type ty ->
  (as_num ty d = Throw <-> ~ exists s t, d = JLeaf s t) /\
  (as_num ty d = UB <-> exists s t, d = JLeaf s t /\ blank s) /\
  (forall s t neg ds rest, d = JLeaf s t -> starts s neg ds rest -> as_num ty d = Ok (wrap ty neg (digits_value ds))).
Proof.
  intros ty d T.
  assert (S3 : forall s t neg ds rest, d = JLeaf s t -> starts s neg ds rest -> as_num ty d = Ok (wrap ty neg (digits_value ds))).
  { intros s t neg ds rest -> H. destruct (convert_int_spec ty s neg ds rest T H) as (ok & E & _). unfold as_num, as_leaf. now rewrite E. }
  assert (S2 : forall s t, d = JLeaf s t -> blank s -> as_num ty d = UB).
  { intros s t -> B. unfold as_num, as_leaf, convert_int. apply blank_iff in B. now rewrite B. }
  split; [|split; [|exact S3]].
  - split.
    + intros E (s & t & ->). destruct (c79_every_text s) as [B|(neg & ds & rest & H)]; [rewrite (S2 s t eq_refl B) in E|rewrite (S3 s t _ _ _ eq_refl H) in E]; discriminate.
    + intros N. destruct d; try reflexivity. exfalso. eauto.
  - split; [|intros (s & t & E & B); eauto].
    intros E. destruct d as [|s t| |]; try discriminate. exists s, t. split; [reflexivity|].
    destruct (c79_every_text s) as [B|(neg & ds & rest & H)]; [exact B|]. rewrite (S3 s t _ _ _ eq_refl H) in E. discriminate.
Qed.
(** The flag convert returns, and as drops, tells whether the text is the number and nothing more. *)
Theorem c79_flag : forall ty s, int_type ty ->
  (snd (convert_int ty s) = true <-> exists neg ds, starts s neg ds [] /\ ds <> [] /\ ~ too_big ty neg (digits_value ds)).
Proof.
  intros ty s T. destruct (c79_every_text s) as [B|(neg & ds & rest & H)].
  - split.
    + unfold convert_int. rewrite (proj1 (blank_iff s) B). discriminate.
    + intros (neg & ds & H & _). now destruct (proj1 (c79_one_way s) B _ _ _ H).
  - destruct (convert_int_spec ty s neg ds rest T H) as (ok & -> & E). cbn [snd]. rewrite E. split.
    + intros (Q & -> & Q2). eauto.
    + intros (neg' & ds' & H' & Q & Q2). destruct (proj2 (c79_one_way s) _ _ _ _ _ _ H H') as (-> & -> & <-). auto.
Qed.
Lemma wrap_fits ty (neg : bool) n : int_type ty -> (0 <= n)%Z -> fits ty (if neg then - n else n)%Z -> wrap ty neg n = (if neg then - n else n)%Z /\ ~ too_big ty neg n.
Proof.
  intros T Hn F. destruct (pow_pos ty T) as (P & P2). unfold wrap, too_big, fits in *. destruct (it_signed ty), neg; try (split; [lia|intros Q; apply Q; lia]).
  - assert (n = 0%Z) by lia. subst n. rewrite (proj2 (Z.leb_gt _ _)) by lia. split; [reflexivity|lia].
  - rewrite (proj2 (Z.leb_gt _ _)) by lia. split; [reflexivity|lia].
Qed.
(** A leaf of type INT whose number fits converts to that number. *)
Definition int_of (s : text) (n : Z) : Prop :=
  exists sg ds, s = sg ++ ds /\ all_digits ds /\ ds <> [] /\ (sg = txt "-" /\ n = (- digits_value ds)%Z \/ (sg = txt "+" \/ sg = []) /\ n = digits_value ds).
Lemma int_of_starts s n : int_of s n -> exists neg ds, starts s neg ds [] /\ ds <> [] /\ n = (if neg then - digits_value ds else digits_value ds)%Z.
Proof.
  intros (sg & ds & -> & A & NE & [(-> & ->)|(Sg & ->)]); [exists true|exists false]; exists ds; (split; [|auto]).
  - exists [], (txt "-"). rewrite app_nil_r. repeat split; [constructor|exact A|discriminate].
  - exists [], sg. rewrite app_nil_r. repeat split; [constructor|exact A|tauto|]. intros Q. now apply app_eq_nil in Q.
Qed.
Theorem c79_int_leaf : forall ty s, int_type ty -> parse_type s = TInt ->
  exists n, int_of s n /\ (fits ty n -> forall t, as_num ty (JLeaf s t) = Ok n /\ snd (convert_int ty s) = true).
Proof.
  intros ty s T E. apply c46_int in E as (sg & body & -> & Sg & Bd).
  assert (A : all_digits body /\ body <> []).
  { destruct Bd as [->|(d & ds & -> & D & _ & Ds)]; split; try discriminate; [|now constructor]. constructor; [|constructor]. cbn. tauto. }
  destruct A as (A & NE).
  assert (I : exists n, int_of (sg ++ body) n).
  { destruct Sg as [->|[->| ->]]; eexists; eexists; eexists; (split; [reflexivity|]); (split; [exact A|]); (split; [exact NE|]); [right|left|right]; (split; [|reflexivity]); auto. }
  destruct I as (n & I). exists n. split; [exact I|]. intros F t. destruct (int_of_starts _ _ I) as (neg & ds & H & Nd & ->).
  assert (V : (0 <= digits_value ds)%Z) by (apply digits_value_nonneg; destruct H as (? & ? & _ & _ & Ad & _); exact Ad).
  destruct (wrap_fits ty neg _ T V F) as (W & Nb). split.
  - rewrite (proj2 (proj2 (c79_outcome ty (JLeaf (sg ++ body) t) T)) _ _ _ _ _ eq_refl H). now rewrite W.
  - apply c79_flag; [exact T|]. eauto.
Qed.

(** *** Round trips of single values *)
Lemma print_int_of n : int_of (print_int n) n.
Proof.
  unfold print_int. destruct (Z.ltb_spec n 0) as [L|L].
  - destruct (print_nonneg_spec (- n)) as (A & E & Q); [lia|]. exists (txt "-"), (print_nonneg (- n)). split; [reflexivity|]. split; [exact A|]. split; [|left; split; [reflexivity|lia]].
    intros Z0. rewrite Z0 in Q. destruct Q as [Q|(? & ? & Q & _)]; discriminate.
  - destruct (print_nonneg_spec n) as (A & E & Q); [lia|]. exists [], (print_nonneg n). split; [reflexivity|]. split; [exact A|]. split; [|right; split; [now right|now symmetry]].
    intros Z0. rewrite Z0 in Q. destruct Q as [Q|(? & ? & Q & _)]; discriminate.
Qed.
Lemma as_num_text ty s n t : int_type ty -> int_of s n -> fits ty n -> as_num ty (JLeaf s t) = Ok n.
Proof.
  intros T I F. destruct (int_of_starts _ _ I) as (neg & ds & H & Nd & ->).
  assert (V : (0 <= digits_value ds)%Z) by (apply digits_value_nonneg; destruct H as (? & ? & _ & _ & Ad & _); exact Ad).
  rewrite (proj2 (proj2 (c79_outcome ty (JLeaf s t) T)) _ _ _ _ _ eq_refl H). now rewrite (proj1 (wrap_fits ty neg _ T V F)).
Qed.
Theorem c79_values : forall ty n b s, int_type ty -> fits ty n ->
  as_num ty (leaf_int n) = Ok n /\ as_flag (leaf_bool b) = Ok b /\ as_text (leaf_text s) = Ok s /\ item_text (leaf_text s) = s /\
  set_int n = leaf_int n /\ set_bool b = leaf_bool b.
Proof.
  intros ty n b s T F. split; [|split; [|split; [|split; [|split]]]].
  - apply as_num_text; [exact T|apply print_int_of|exact F].
  - unfold as_flag, as_leaf, leaf_bool. now rewrite (proj2 (c46_print_bool b)).
  - reflexivity.
  - reflexivity.
  - unfold set_int, leaf_value, leaf_int. now rewrite c46_print_int.
  - unfold set_bool, leaf_value, leaf_bool. now rewrite (proj1 (c46_print_bool b)).
Qed.

(** *** Vectors *)
Lemma nth_skip {A} (d : A) l : forall n i, nth i (skipn n l) d = nth (n + i) l d.
Proof. induction l as [|a l IH]; intros [|n] i; cbn [skipn nth Nat.add]; try reflexivity; [now destruct i|apply IH]. Qed.
Section Vec.
  Context {A : Type}.
  Variable def : A.
  Variables (item : A -> json) (conv : json -> res A).
  Lemma of_vec_map (l : list A) : of_vec item l = Ok (JList (map item l)).
  Proof.
    unfold of_vec. rewrite (for_fill (fun i => item (nth i l def))).
    - cbn [bind]. do 2 f_equal. apply (list_ext_nth (item def)); [now rewrite tab_length, map_length|]. intros i Hi. rewrite tab_length in Hi. rewrite nth_tab by exact Hi. now rewrite map_nth.
    - apply repeat_length.
    - intros i ret Hi Hl. rewrite (rd_nth l i def) by exact Hi. cbn [bind]. apply wr_ok. lia.
  Qed.
  Lemma mapM_snoc (l : list json) x : mapM conv (l ++ [x]) = (v <- mapM conv l ;; a <- conv x ;; Ok (v ++ [a])).
  Proof.
    induction l as [|y l IH]; cbn [app mapM].
    - cbn [bind]. now destruct (conv x).
    - destruct (conv y) as [b| |]; cbn [bind]; [|reflexivity|reflexivity]. rewrite IH. destruct (mapM conv l) as [v| |]; cbn [bind]; [|reflexivity|reflexivity].
      now destruct (conv x).
  Qed.
  Lemma as_vec_loop n (l : list json) : n <= length l -> forall ret, length ret = length l ->
    for_ n (fun i ret => x <- rd l i ;; a <- conv x ;; wr ret i a) ret = (v <- mapM conv (firstn n l) ;; Ok (v ++ skipn n ret)).
  Proof.
    induction n as [|n IH]; intros Hn ret Hl; [reflexivity|]. rewrite for_S, IH by (auto; lia).
    assert (E : firstn (S n) l = firstn n l ++ [nth n l JNull]).
    { clear IH Hl ret. revert n Hn. induction l as [|y l IHl]; intros n Hn; cbn [length] in Hn; [lia|]. destruct n as [|n]; [reflexivity|]. cbn [firstn app nth]. f_equal. apply IHl. lia. }
    rewrite E, mapM_snoc. destruct (mapM conv (firstn n l)) as [v| |] eqn:Ev; cbn [bind]; [|reflexivity|reflexivity].
    rewrite (rd_nth l n JNull) by lia. cbn [bind]. destruct (conv (nth n l JNull)) as [a| |]; cbn [bind]; [|reflexivity|reflexivity].
    apply mapM_length in Ev. rewrite firstn_length_le in Ev by lia.
    rewrite wr_ok by (rewrite app_length, skipn_length; lia). f_equal.
    apply (list_ext_nth def); rewrite upd_length, !app_length, !skipn_length; cbn [length]; [lia|]. intros i Hi.
    destruct (Nat.eq_dec i n) as [->|Ni].
    - rewrite nth_upd_eq by (rewrite app_length, skipn_length; lia). rewrite app_nth1 by (rewrite app_length; cbn; lia). rewrite app_nth2 by lia. now rewrite Ev, Nat.sub_diag.
    - rewrite nth_upd_neq by lia. destruct (Nat.lt_ge_cases i n).
      + rewrite !app_nth1 by (rewrite ?app_length; lia). reflexivity.
      + rewrite app_nth2 by lia. rewrite app_nth2 by (rewrite app_length; cbn; lia). rewrite app_length, Ev. cbn [length].
        rewrite !nth_skip. f_equal. lia.
  Qed.
  (** as_vec converts one element after the other; the first that fails decides. *)
  Lemma as_vec_mapM (l : list json) : as_vec def conv (JList l) = mapM conv l.
  Proof.
    unfold as_vec. rewrite as_vec_loop by (rewrite ?repeat_length; auto). rewrite firstn_all. destruct (mapM conv l) as [v| |]; cbn [bind]; try reflexivity.
    rewrite skipn_all2 by (rewrite repeat_length; lia). now rewrite app_nil_r.
  Qed.
  (** *** Maps *)
  Lemma vset_last k (x : A) m : Forall (fun p => key_lt (fst p) k) m -> vset k x m = m ++ [(k, x)].
  Proof.
    induction m as [|[k' x'] m IH]; intros F; [reflexivity|]. inversion F as [|? ? Fk Fm]; subst. cbn [fst] in Fk. cbn [vset app].
    rewrite text_cmp_opp. unfold key_lt in Fk. rewrite Fk. cbn [CompOpp]. now rewrite IH.
  Qed.
  Definition vkeys (m : list (text * A)) : list text := map fst m.
  Lemma sorted_before pre k (x : A) m : StronglySorted key_lt (vkeys (pre ++ (k, x) :: m)) -> Forall (fun p => key_lt (fst p) k) pre.
  Proof.
    unfold vkeys. rewrite map_app. induction pre as [|[k' x'] pre IH]; intros So; [constructor|]. cbn [map app fst] in So. inversion So as [|? ? So2 Fa]; subst.
    constructor; [|auto]. cbn [fst]. rewrite Forall_forall in Fa. apply Fa. apply in_or_app. right. now left.
  Qed.
  Lemma of_map_map m : StronglySorted key_lt (vkeys m) -> of_map item m = JDict (map (fun p => (fst p, item (snd p))) m).
  Proof.
    intros So. unfold of_map. f_equal.
    assert (Q : forall post pre, m = pre ++ post ->
      fold_left (fun tmp e => map_set (fst e) (item (snd e)) tmp) post (map (fun p => (fst p, item (snd p))) pre) = map (fun p => (fst p, item (snd p))) m).
    { induction post as [|[k x] post IH]; intros pre E; [now rewrite E, app_nil_r|]. cbn [fold_left fst snd].
      rewrite E in So. pose proof (sorted_before _ _ _ _ So) as F.
      rewrite map_set_last.
      - change [(k, item x)] with (map (fun p => (fst p, item (snd p))) [(k, x)]). rewrite <- map_app. apply IH. now rewrite <- app_assoc.
      - apply Forall_map. exact F. }
    now apply (Q m []).
  Qed.
  (** as_map converts one value after the other, in the order of the keys. *)
  Lemma as_map_mapM (m : list (text * json)) : StronglySorted key_lt (keys m) ->
    as_map conv (JDict m) = (v <- mapM (fun e => conv (snd e)) m ;; Ok (combine (keys m) v)).
  Proof.
    intros So. unfold as_map.
    assert (Q : forall post pre (acc : list (text * A)), m = pre ++ post -> map fst acc = keys pre ->
      foldM (fun ret e => a <- conv (snd e) ;; Ok (vset (fst e) a ret)) post acc = (v <- mapM (fun e => conv (snd e)) post ;; Ok (acc ++ combine (keys post) v))).
    { induction post as [|[k x] post IH]; intros pre acc E Ka; cbn [foldM mapM fst snd]; [cbn [bind keys map combine]; now rewrite app_nil_r|].
      destruct (conv x) as [a| |]; cbn [bind]; [|reflexivity|reflexivity].
      rewrite vset_last.
      - rewrite (IH (pre ++ [(k, x)])); [|now rewrite <- app_assoc|unfold keys in *; now rewrite !map_app, Ka].
        destruct (mapM _ post) as [v| |]; cbn [bind]; [|reflexivity|reflexivity]. cbn [keys map combine fst]. now rewrite <- app_assoc.
      - rewrite E in So. clear - So Ka. unfold keys in *. rewrite map_app, <- Ka in So. cbn [map fst] in So. clear Ka.
        induction acc as [|[k' x'] acc IHa]; [constructor|]. cbn [map app fst] in So. inversion So as [|? ? So2 Fa]; subst.
        constructor; [|auto]. cbn [fst]. rewrite Forall_forall in Fa. apply Fa. apply in_or_app. right. now left. }
    now rewrite (Q m [] []).
  Qed.
End Vec.
Theorem c79_vec_outcome : forall A (def : A) conv d,
  (forall l, d = JList l -> as_vec def conv d = mapM conv l) /\ ((~ exists l, d = JList l) -> as_vec def conv d = Throw).
Proof.
  intros A def conv d. split; [intros l ->; apply as_vec_mapM|]. intros N. destruct d; try reflexivity. exfalso. eauto.
Qed.
Theorem c79_map_outcome : forall A conv d,
  (forall m, d = JDict m -> StronglySorted key_lt (keys m) -> as_map (A := A) conv d = (v <- mapM (fun e => conv (snd e)) m ;; Ok (combine (keys m) v))) /\
  ((~ exists m, d = JDict m) -> as_map conv d = Throw).
Proof.
  intros A conv d. split; [intros m -> So; now apply as_map_mapM|]. intros N. destruct d; try reflexivity. exfalso. eauto.
Qed.
Lemma mapM_back {A} (item : A -> json) conv l : Forall (fun x => conv (item x) = Ok x) l -> mapM conv (map item l) = Ok l.
Proof. induction 1 as [|x l E F IH]; [reflexivity|]. cbn [map mapM]. rewrite E. cbn [bind]. now rewrite IH. Qed.
Lemma mapM_back_snd {A} (item : A -> json) conv (m : list (text * A)) : Forall (fun p => conv (item (snd p)) = Ok (snd p)) m ->
  mapM (fun e => conv (snd e)) (map (fun p => (fst p, item (snd p))) m) = Ok (map snd m).
Proof. induction 1 as [|[k x] m E F IH]; [reflexivity|]. cbn [map mapM fst snd] in *. rewrite E. cbn [bind]. now rewrite IH. Qed.
Lemma keys_items {A} (item : A -> json) (m : list (text * A)) : keys (map (fun p => (fst p, item (snd p))) m) = vkeys m.
Proof. unfold keys, vkeys. now rewrite map_map. Qed.
Lemma combine_split {A} (m : list (text * A)) : combine (vkeys m) (map snd m) = m.
Proof. induction m as [|[k x] m IH]; [reflexivity|]. cbn [vkeys map combine fst snd]. f_equal. exact IH. Qed.

(** *** What the elements are *)
Inductive elem := EInt (ty : ity) | EBool | EStr.
Definition carrier (e : elem) : Type := match e with EInt _ => Z | EBool => bool | EStr => text end.
Definition default (e : elem) : carrier e := match e with EInt _ => 0%Z | EBool => false | EStr => [] end.
Definition item_of (e : elem) : carrier e -> json := match e with EInt _ => leaf_int | EBool => leaf_bool | EStr => leaf_text end.
(** static_cast<T>(JsonItem): as<T>() for numbers and bool, operator std::string for strings *)
Definition cast_to (e : elem) : json -> res (carrier e) :=
  match e with EInt ty => as_num ty | EBool => as_flag | EStr => fun d => Ok (item_text d) end.
Definition of_type (e : elem) : carrier e -> Prop := match e with EInt ty => fun n => int_type ty /\ fits ty n | EBool => fun _ => True | EStr => fun _ => True end.
Lemma cast_item e x : of_type e x -> cast_to e (item_of e x) = Ok x.
Proof.
  destruct e as [ty| |]; cbn [of_type cast_to item_of carrier] in *.
  - intros (T & F). now apply (c79_values ty x true []).
  - intros _. unfold as_flag, as_leaf, leaf_bool. now rewrite (proj2 (c46_print_bool x)).
  - reflexivity.
Qed.
(** A vector or map of values made a list or dictionary converts back to the same values. *)
Theorem c79_vec : forall e l, Forall (of_type e) l ->
  exists d, of_vec (item_of e) l = Ok d /\ as_vec (default e) (cast_to e) d = Ok l /\ jsize d = length l.
Proof.
  intros e l F. exists (JList (map (item_of e) l)). split; [apply (of_vec_map (default e))|]. split; [|cbn [jsize]; apply map_length].
  rewrite as_vec_mapM. apply mapM_back. eapply Forall_impl; [|exact F]. intros x. apply cast_item.
Qed.
Theorem c79_map : forall e m, StronglySorted key_lt (vkeys m) -> Forall (fun p => of_type e (snd p)) m ->
  as_map (cast_to e) (of_map (item_of e) m) = Ok m.
Proof.
  intros e m So F. rewrite of_map_map by exact So. rewrite as_map_mapM by now rewrite keys_items. rewrite mapM_back_snd.
  - cbn [bind]. now rewrite keys_items, combine_split.
  - eapply Forall_impl; [|exact F]. intros p. apply cast_item.
Qed.
(** Doubles come back to six decimals (C43 has the exact statement for one number). *)
Theorem c79_doubles : forall F fl l, nearest F fl -> Forall (finite F) l ->
  exists d l', of_vec leaf_double l = Ok d /\ as_vec d0 (as_double fl) d = Ok l' /\ Forall2 (close (1 / 10 ^ 6)%R) l l'.
Proof.
  intros F fl l Hn Fl. exists (JList (map leaf_double l)), (map (trip fl) l). split; [apply (of_vec_map d0)|]. split.
  - rewrite as_vec_mapM. induction Fl as [|x l Hx Fl IH]; [reflexivity|]. cbn [map mapM]. unfold as_double at 1, leaf_double at 1, as_leaf.
    rewrite (trip_read fl F) by exact Hx. cbn [bind]. now rewrite IH.
  - apply Forall2_map_r. eapply Forall_impl; [|exact Fl]. intros x. now apply trip_close.
Qed.
(** The same after writing the document as text and reading the text. *)
Definition text_ok (e : elem) : carrier e -> Prop := match e with EInt _ => fun _ => True | EBool => fun _ => True | EStr => fun s => ~ In quote s /\ s <> [] end.
Lemma item_wf e x : text_ok e x -> wf (item_of e x) /\ typed (item_of e x) /\ print (item_of e x) <> [].
Proof.
  destruct e as [ty| |]; cbn [text_ok item_of carrier] in *.
  - intros _. pose proof (proj1 (proj2 (c44_leaves [] x true))) as (A & B). split; [exact A|]. split; [exact B|]. cbn [leaf_int print]. intros E.
    pose proof (c46_print_int x) as Q. rewrite E in Q. discriminate.
  - intros _. pose proof (proj2 (proj2 (c44_leaves [] 0%Z x))) as (A & B). split; [exact A|]. split; [exact B|]. destruct x; discriminate.
  - intros (Q & NE). pose proof (proj1 (c44_leaves x 0%Z true) Q) as (A & B). split; [exact A|]. split; [exact B|]. unfold leaf_text. cbn [print]. destruct (parse_type x); try exact NE. discriminate.
Qed.
Definition reads_back (d d' : json) : Prop := exists f0 st, forall f, f0 <= f -> read_item f (s_open (print d)) = Some (Ok (d', st)).
Lemma last_map {A B} (g : A -> B) l x y : l <> [] -> last (map g l) y = g (last l x).
Proof. induction l as [|a l IH]; [easy|]. intros _. destruct l as [|b l]; [reflexivity|]. change (last (map g (b :: l)) y = g (last (b :: l) x)). now apply IH. Qed.
Theorem c79_vec_text : forall e l, Forall (of_type e) l -> Forall (text_ok e) l -> l <> [] ->
  exists d d', of_vec (item_of e) l = Ok d /\ reads_back d d' /\ as_vec (default e) (cast_to e) d' = Ok l.
Proof.
  intros e l F Tx NE. exists (JList (map (item_of e) l)), (JList (map (item_of e) l)). split; [apply (of_vec_map (default e))|].
  assert (W : wf (JList (map (item_of e) l))).
  { cbn [wf]. split; [now destruct l|]. split.
    - right. rewrite (last_map _ _ (default e)) by exact NE. apply item_wf. rewrite Forall_forall in Tx. apply Tx.
      destruct (exists_last NE) as (l' & a & ->). rewrite last_last. apply in_or_app. right. now left.
    - clear F NE. induction Tx as [|x l Hx _ IH]; [exact I|]. cbn [map]. split; [now apply item_wf|exact IH]. }
  assert (Ty : typed (JList (map (item_of e) l))).
  { cbn [typed]. clear F NE W. induction Tx as [|x l Hx _ IH]; [exact I|]. cbn [map]. split; [now apply item_wf|exact IH]. }
  split.
  - destruct (c44_roundtrip_partial _ W) as (f0 & st & E); [discriminate|]. exists f0, st. intros f Hf. rewrite E by exact Hf. now rewrite c44_same.
  - rewrite as_vec_mapM. apply mapM_back. eapply Forall_impl; [|exact F]. intros x. apply cast_item.
Qed.
Theorem c79_map_text : forall e m, StronglySorted key_lt (vkeys m) -> Forall (fun p => of_type e (snd p)) m -> Forall (fun p => text_ok e (snd p)) m ->
  Forall (fun p => ~ In quote (fst p)) m -> m <> [] ->
  exists d', reads_back (of_map (item_of e) m) d' /\ as_map (cast_to e) d' = Ok m.
Proof.
  intros e m So F Tx Q NE. exists (of_map (item_of e) m). split; [|now apply c79_map]. rewrite of_map_map by exact So. set (d := JDict _).
  assert (W : wf d).
  { cbn [d wf]. split; [now destruct m|]. split; [now rewrite keys_items|].
    clear F NE So. induction m as [|[k x] m IH]; [exact I|]. inversion Tx; inversion Q; subst. cbn [map fst snd] in *. split; [assumption|]. split; [now apply item_wf|now apply IH]. }
  assert (Ty : typed d).
  { cbn [d typed]. clear F NE So W. induction m as [|[k x] m IH]; [exact I|]. inversion Tx; inversion Q; subst. cbn [map fst snd] in *. split; [now apply item_wf|now apply IH]. }
  destruct (c44_roundtrip_partial _ W) as (f0 & st & E); [discriminate|]. exists f0, st. intros f Hf. rewrite E by exact Hf. now rewrite c44_same.
Qed.

(** *** Failed conversions are not reported. "A conversion that cannot be done throws": texts that
    are no number give 0 or their first digits, numbers that do not fit give another number, a
    negative number is accepted for an unsigned type, and an empty text gives anything. *)
Theorem c79_reported_refuted :
  (exists s, parse_type s = TString /\ snd (convert_int c_int s) = false /\ as_num c_int (leaf_text s) = Ok 0%Z) /\
  (exists s, parse_type s = TFloat /\ snd (convert_int c_int s) = false /\ as_num c_int (leaf_text s) = Ok 3%Z) /\
  (exists n, ~ fits c_int n /\ as_num c_int (leaf_int n) = Ok (2 ^ 31 - 1)%Z) /\
  (exists n, ~ fits c_unsigned n /\ snd (convert_int c_unsigned (print_int n)) = true /\ as_num c_unsigned (leaf_int n) = Ok (2 ^ 32 - 1)%Z) /\
  as_num c_int (leaf_text []) = UB.
Proof.
  split; [|split; [|split; [|split]]].
  - exists (txt "abc"). repeat split; vm_compute; reflexivity.
  - exists (txt "3.7"). repeat split; vm_compute; reflexivity.
  - exists 4000000000%Z. split; [|vm_compute; reflexivity]. vm_compute. intros (_ & Q). discriminate.
  - exists (-1)%Z. split; [vm_compute; intros (Q & _); now apply Q|]. split; vm_compute; reflexivity.
  - reflexivity.
Qed.
(** Casting an item to a string never fails; as<std::string>() does on all but leaves. *)
Theorem c79_string : forall d, (forall s t, d = JLeaf s t -> as_text d = Ok s /\ item_text d = s) /\
  ((~ exists s t, d = JLeaf s t) -> as_text d = Throw /\ item_text d = print d).
Proof.
  intros d. split; [intros s t ->; split; reflexivity|]. intros N. destruct d; try (split; reflexivity). exfalso. eauto.
Qed.
(** The readers used for saved layers are these conversions. *)
Theorem c79_same_readers : forall s, (forall n, read_size s = Ok n <-> exists z, fst (convert_int c_ulong s) = Some z /\ n = Z.to_nat z) /\
  (forall z, read_int s = Ok z <-> fst (convert_int c_int s) = Some z).
Proof.
  intros s. destruct (c79_every_text s) as [B|(neg & ds & rest & H)].
  - apply blank_iff in B. unfold read_size, read_int, convert_int. rewrite B. split; [intros n; split; [discriminate|intros (z & E & _); discriminate]|intros z; split; discriminate].
  - assert (T1 : int_type c_ulong) by (vm_compute; discriminate). assert (T2 : int_type c_int) by (vm_compute; discriminate).
    destruct (convert_int_spec c_ulong s neg ds rest T1 H) as (o1 & E1 & _). destruct (convert_int_spec c_int s neg ds rest T2 H) as (o2 & E2 & _).
    destruct (starts_parts _ _ _ _ H) as (c & w & E & Ts & Td). unfold read_size, read_int. rewrite E, Ts, Td, E1, E2. cbn [fst].
    assert (V : (0 <= digits_value ds)%Z) by (apply digits_value_nonneg; destruct H as (? & ? & _ & _ & Ad & _); exact Ad).
    change (dec_value ds) with (digits_value ds). set (n := digits_value ds) in *. split.
    + intros k. assert (Q : (if (2 ^ 64 <=? n)%Z then 2 ^ 64 - 1 else if neg then (- n) mod 2 ^ 64 else n)%Z = wrap c_ulong neg n).
      { unfold wrap, c_ulong. cbn [it_signed it_bits]. destruct (Z.leb_spec (2 ^ 64) n); [reflexivity|]. destruct neg; cbn [andb]; [|reflexivity].
        destruct (Z.ltb_spec 0 n); [|replace n with 0%Z by lia; reflexivity]. rewrite Z.mod_opp_l_nz; [now rewrite Z.mod_small by lia|lia|rewrite Z.mod_small; lia]. }
      rewrite Q. split; [intros [= <-]; eauto|intros (z & [= <-] & ->); reflexivity].
    + intros z. unfold wrap, c_int. cbn [it_signed it_bits]. split; [intros [= <-]; reflexivity|intros [= <-]; reflexivity].
Qed.

(** *** The hypotheses can be met *)
Example c79_hypotheses_met :
  int_type c_int /\ fits c_int (-2147483648)%Z /\ Forall (of_type (EInt c_int)) [-2147483648; 0; 17; 2147483647]%Z /\
  Forall (of_type (EInt c_ulong)) [18446744073709551615]%Z /\
  starts (txt " -12.5") true (txt "12") (txt ".5") /\ as_num c_int (leaf_text (txt " -12.5")) = Ok (-12)%Z /\
  StronglySorted key_lt (vkeys (A := text) [(txt "a", txt "x y"); (txt "b", txt "10")]) /\
  Forall (text_ok EStr) [txt "x y"; txt "10"] /\
  as_vec 0%Z (as_num c_int) (JList [leaf_int 1; JList []]) = Throw /\
  as_vec [] (cast_to EStr) (JList [leaf_int 1; JList []]) = Ok [txt "1"; txt "[]"].
Proof.
  assert (T : int_type c_int /\ int_type c_ulong) by (split; vm_compute; discriminate).
  split; [apply T|]. split; [split; vm_compute; congruence|].
  split; [repeat (apply Forall_cons; [split; [apply T|split; vm_compute; congruence]|]); apply Forall_nil|].
  split; [apply Forall_cons; [split; [apply T|split; vm_compute; congruence]|]; apply Forall_nil|].
  split; [|split; [vm_compute; reflexivity|split; [|split; [|split; vm_compute; reflexivity]]]].
  - exists (txt " "), (txt "-"). split; [reflexivity|]. split; [repeat constructor; cbn; tauto|]. split; [repeat constructor; cbn; tauto|]. split; [reflexivity|].
    split; [cbn; intuition discriminate|discriminate].
  - repeat constructor.
  - repeat (apply Forall_cons; [split; vm_compute; intuition discriminate|]). apply Forall_nil.
Qed.

Print Assumptions c79_every_text.
Print Assumptions c79_one_way.
Print Assumptions c79_outcome.
Print Assumptions c79_flag.
Print Assumptions c79_int_leaf.
Print Assumptions c79_values.
Print Assumptions c79_vec_outcome.
Print Assumptions c79_map_outcome.
Print Assumptions c79_vec.
Print Assumptions c79_map.
Print Assumptions c79_doubles.
Print Assumptions c79_vec_text.
Print Assumptions c79_map_text.
Print Assumptions c79_reported_refuted.
Print Assumptions c79_string.
Print Assumptions c79_same_readers.
