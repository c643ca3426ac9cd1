(** C46: type inference of text fields. *)
From Verif Require Import Base TypeModel.
From Coq Require Import Ascii String.
Local Open Scope list_scope.

(** *** Specification *)
Definition is_digit (c : ascii) : Prop := In c (txt "0123456789").
Definition all_digits (s : text) : Prop := Forall is_digit s.
Definition is_sign (s : text) : Prop := s = [] \/ s = txt "-" \/ s = txt "+".
(** An optionally signed decimal integer without leading zeros. *)
Definition int_text (s : text) : Prop :=
  exists sg body, s = sg ++ body /\ is_sign sg /\
    (body = txt "0" \/ exists d ds, body = d :: ds /\ is_digit d /\ d <> "0"%char /\ all_digits ds).
(** An optionally signed decimal number with optional point and exponent. *)
Definition float_text (s : text) : Prop :=
  exists sg ip dot fp ex, s = sg ++ ip ++ dot ++ fp ++ ex /\ is_sign sg /\ all_digits ip /\
    (dot = [] \/ dot = txt ".") /\ all_digits fp /\ fp <> [] /\
    (ex = [] \/ exists e es ds, ex = e :: es ++ ds /\ (e = "e"%char \/ e = "E"%char) /\ is_sign es /\ all_digits ds /\ ds <> []).
Definition bool_text (s : text) : Prop := s = txt "true" \/ s = txt "false".

(** The number a digit text stands for. *)
Definition digit_value (c : ascii) : Z := Z.of_nat (nat_of_ascii c) - 48.
Definition digits_value (s : text) : Z := fold_left (fun v c => v * 10 + digit_value c)%Z s 0%Z.

(** *** Languages *)
Inductive lang : regex -> text -> Prop :=
| lang_eps : lang REps []
| lang_set f c : f c = true -> lang (RSet f) [c]
| lang_cat r s u v : lang r u -> lang s v -> lang (RCat r s) (u ++ v)
| lang_altl r s u : lang r u -> lang (RAlt r s) u
| lang_altr r s u : lang s u -> lang (RAlt r s) u
| lang_star0 r : lang (RStar r) []
| lang_starS r u v : lang r u -> lang (RStar r) v -> lang (RStar r) (u ++ v).

Lemma nullable_lang r : nullable r = true <-> lang r [].
Proof.
  split.
  - induction r; cbn; intros E; try discriminate.
    + constructor.
    + apply andb_prop in E as [E1 E2]. change (@nil ascii) with (@nil ascii ++ []). constructor; auto.
    + apply orb_prop in E as [E1|E2]; [apply lang_altl|apply lang_altr]; auto.
    + apply lang_star0.
  - intros L. remember (@nil ascii) as w eqn:Ew. induction L; cbn; try reflexivity; try discriminate.
    + first [apply app_eq_nil in Ew as [-> ->] | symmetry in Ew; apply app_eq_nil in Ew as [-> ->]]. now rewrite IHL1, IHL2.
    + now rewrite IHL.
    + rewrite IHL by assumption. apply orb_true_r.
Qed.

Lemma star_cons_inv r c s : lang (RStar r) (c :: s) -> exists u v, s = u ++ v /\ lang r (c :: u) /\ lang (RStar r) v.
Proof.
  intros L. remember (RStar r) as q eqn:Eq. remember (c :: s) as w eqn:Ew. revert c s Ew.
  induction L; intros; try discriminate. injection Eq as ->.
  destruct u as [|a u].
  - cbn in Ew. subst v. now apply IHL2.
  - cbn in Ew. injection Ew as -> Es. exists u, v. auto.
Qed.

Lemma deriv_lang c r : forall s, lang (deriv c r) s <-> lang r (c :: s).
Proof.
  induction r as [| |f|r1 IH1 r2 IH2|r1 IH1 r2 IH2|r IH]; intros s; cbn.
  - split; intros L; inversion L.
  - split; intros L; inversion L.
  - destruct (f c) eqn:E; split; intros L; inversion L; subst; auto; try constructor; auto. congruence.
  - assert (Q : lang (RCat (deriv c r1) r2) s <-> exists u v, s = u ++ v /\ lang r1 (c :: u) /\ lang r2 v).
    { split.
      - intros L. inversion L; subst. exists u, v. split; [reflexivity|]. split; [now apply IH1|assumption].
      - intros (u & v & -> & L1 & L2). constructor; [now apply IH1|assumption]. }
    assert (P : lang (RCat r1 r2) (c :: s) <-> (exists u v, s = u ++ v /\ lang r1 (c :: u) /\ lang r2 v) \/ (lang r1 [] /\ lang r2 (c :: s))).
    { split.
      - intros L. inversion L as [| |x y u v L1 L2 Ex Es| | | |]; subst. destruct u as [|a u]; cbn in Es.
        + right. subst v. auto.
        + left. injection Es as -> Es. exists u, v. auto.
      - intros [(u & v & -> & L1 & L2)|[L1 L2]].
        + change (c :: u ++ v) with ((c :: u) ++ v). now constructor.
        + change (c :: s) with ([] ++ c :: s). now constructor. }
    rewrite P. destruct (nullable r1) eqn:E.
    + apply nullable_lang in E. split.
      * intros L. inversion L as [| | |x y u L1|x y u L1| |]; subst; [left; now apply Q|right; split; [assumption|now apply IH2]].
      * intros [L|[_ L]]; [apply lang_altl; now apply Q|apply lang_altr; now apply IH2].
    + rewrite Q. split; [auto|]. intros [L|[L _]]; [assumption|]. apply nullable_lang in L. congruence.
  - split; intros L; inversion L; subst; (apply lang_altl; now apply IH1) || (apply lang_altr; now apply IH2).
  - split.
    + intros L. inversion L as [| |x y u v L1 L2 Ex Es| | | |]; subst. change (c :: u ++ v) with ((c :: u) ++ v).
      apply lang_starS; [now apply IH|assumption].
    + intros L. apply star_cons_inv in L as (u & v & -> & L1 & L2). constructor; [now apply IH|assumption].
Qed.

Lemma regex_match_lang s : forall r, regex_match r s = true <-> lang r s.
Proof.
  induction s as [|c s IH]; intros r; cbn; [apply nullable_lang|]. rewrite IH. apply deriv_lang.
Qed.

(** *** Shapes of the parts *)
Lemma lang_cat_iff r s w : lang (RCat r s) w <-> exists u v, w = u ++ v /\ lang r u /\ lang s v.
Proof.
  split; [intros L; inversion L; subst; eauto|]. intros (u & v & -> & A & B). now constructor.
Qed.
Lemma lang_alt_iff r s w : lang (RAlt r s) w <-> lang r w \/ lang s w.
Proof. split; [intros L; inversion L; subst; auto|]. intros [A|A]; [now apply lang_altl|now apply lang_altr]. Qed.
Lemma lang_set_iff f w : lang (RSet f) w <-> exists c, w = [c] /\ f c = true.
Proof. split; [intros L; inversion L; subst; eauto|]. intros (c & -> & A). now constructor. Qed.
Lemma lang_eps_iff w : lang REps w <-> w = [].
Proof. split; [intros L; now inversion L|intros ->; constructor]. Qed.
Lemma lang_opt_iff r w : lang (ropt r) w <-> w = [] \/ lang r w.
Proof. unfold ropt. rewrite lang_alt_iff, lang_eps_iff. tauto. Qed.
Lemma lang_star_set f w : lang (RStar (RSet f)) w <-> Forall (fun c => f c = true) w.
Proof.
  split.
  - induction w as [|c w IH]; intros L; [constructor|]. apply star_cons_inv in L as (u & v & -> & L1 & L2).
    apply lang_set_iff in L1 as (d & E & F). injection E as <- ->. constructor; auto.
  - induction w as [|c w IH]; intros F; [apply lang_star0|]. inversion F; subst.
    change (c :: w) with ([c] ++ w). apply lang_starS; [now constructor|auto].
Qed.
Lemma lang_char_iff c w : lang (rchar c) w <-> w = [c].
Proof.
  unfold rchar. rewrite lang_set_iff. split.
  - intros (d & -> & E). apply Ascii.eqb_eq in E. now subst.
  - intros ->. exists c. split; [reflexivity|apply Ascii.eqb_refl].
Qed.
Lemma lang_word_iff u w : lang (rword u) w <-> w = u.
Proof.
  revert w. induction u as [|c u IH]; intros w; cbn [rword]; [apply lang_eps_iff|].
  rewrite lang_cat_iff. split.
  - intros (a & b & -> & A & B). apply lang_char_iff in A. apply IH in B. now subst.
  - intros ->. exists [c], u. split; [reflexivity|]. split; [now apply lang_char_iff|now apply IH].
Qed.
Lemma oneof_In s c : oneof s c = true <-> In c (txt s).
Proof.
  unfold oneof. rewrite existsb_exists. split.
  - intros (x & I & E). apply Ascii.eqb_eq in E. now subst.
  - intros I. exists c. split; [assumption|apply Ascii.eqb_refl].
Qed.
Lemma digit_range c : range "0" "9" c = true <-> is_digit c.
Proof.
  unfold is_digit. rewrite <- oneof_In.
  destruct c as [b0 b1 b2 b3 b4 b5 b6 b7]. destruct b0, b1, b2, b3, b4, b5, b6, b7; vm_compute; split; congruence.
Qed.
Lemma digit19_range c : range "1" "9" c = true <-> is_digit c /\ c <> "0"%char.
Proof.
  unfold is_digit. rewrite <- oneof_In.
  destruct c as [b0 b1 b2 b3 b4 b5 b6 b7]. destruct b0, b1, b2, b3, b4, b5, b6, b7; vm_compute; split;
    try (intros E; split; congruence); try (intros [E F]; congruence).
Qed.
Lemma lang_digits w : lang (RStar (RSet (range "0" "9"))) w <-> all_digits w.
Proof.
  rewrite lang_star_set. unfold all_digits. split; apply Forall_impl; intros c; apply digit_range.
Qed.
Lemma lang_digits1 w : lang (rplus (RSet (range "0" "9"))) w <-> all_digits w /\ w <> [].
Proof.
  unfold rplus. rewrite lang_cat_iff. split.
  - intros (u & v & -> & A & B). apply lang_set_iff in A as (c & -> & E). apply lang_digits in B. apply digit_range in E.
    split; [now constructor|discriminate].
  - intros [A N]. destruct w as [|c w]; [easy|]. inversion A; subst. exists [c], w. split; [reflexivity|].
    split; [constructor; now apply digit_range|now apply lang_digits].
Qed.
Lemma lang_sign w : lang (ropt (RSet (oneof "-+"))) w <-> is_sign w.
Proof.
  rewrite lang_opt_iff, lang_set_iff. unfold is_sign. split.
  - intros [->|(c & -> & E)]; [auto|]. apply oneof_In in E as [<-|[<-|[]]]; auto.
  - intros [->|[->| ->]]; [auto| |]; right; eexists; (split; [reflexivity|reflexivity]).
Qed.

Lemma integer_lang s : regex_match integer_regex s = true <-> int_text s.
Proof.
  rewrite regex_match_lang. unfold integer_regex, int_text. rewrite lang_cat_iff. split.
  - intros (sg & body & -> & A & B). exists sg, body. split; [reflexivity|]. split; [now apply lang_sign|].
    apply lang_alt_iff in B as [B|B]; [left; now apply lang_char_iff in B|right].
    apply lang_cat_iff in B as (u & ds & -> & C & D). apply lang_set_iff in C as (d & -> & E).
    apply digit19_range in E as [E1 E2]. exists d, ds. split; [reflexivity|]. split; [assumption|]. split; [assumption|now apply lang_digits].
  - intros (sg & body & -> & A & B). exists sg, body. split; [reflexivity|]. split; [now apply lang_sign|].
    apply lang_alt_iff. destruct B as [->|(d & ds & -> & E1 & E2 & E3)]; [left; now apply lang_char_iff|right].
    apply lang_cat_iff. exists [d], ds. split; [reflexivity|]. split; [constructor; now apply digit19_range|now apply lang_digits].
Qed.
Lemma float_lang s : regex_match float_regex s = true <-> float_text s.
Proof.
  rewrite regex_match_lang. unfold float_regex, float_text. split.
  - intros L. apply lang_cat_iff in L as (sg & w1 & -> & A & L). apply lang_cat_iff in L as (ip & w2 & -> & B & L).
    apply lang_cat_iff in L as (dot & w3 & -> & C & L). apply lang_cat_iff in L as (fp & ex & -> & D & E).
    apply lang_digits1 in D as [D1 D2]. exists sg, ip, dot, fp, ex. split; [reflexivity|].
    split; [now apply lang_sign|]. split; [now apply lang_digits|].
    split; [apply lang_opt_iff in C as [C|C]; [auto|right; now apply lang_char_iff in C]|]. split; [assumption|]. split; [assumption|].
    apply lang_opt_iff in E as [E|E]; [auto|right].
    apply lang_cat_iff in E as (a & w4 & -> & E1 & E2). apply lang_cat_iff in E2 as (es & ds & -> & E2 & E3).
    apply lang_set_iff in E1 as (e & -> & E1). apply lang_digits1 in E3 as [E3 E4]. exists e, es, ds. split; [reflexivity|].
    split; [|split; [now apply lang_sign|auto]]. apply oneof_In in E1 as [<-|[<-|[]]]; auto.
  - intros (sg & ip & dot & fp & ex & -> & A & B & C & D1 & D2 & E).
    apply lang_cat_iff. exists sg, (ip ++ dot ++ fp ++ ex). split; [reflexivity|]. split; [now apply lang_sign|].
    apply lang_cat_iff. exists ip, (dot ++ fp ++ ex). split; [reflexivity|]. split; [now apply lang_digits|].
    apply lang_cat_iff. exists dot, (fp ++ ex). split; [reflexivity|].
    split; [apply lang_opt_iff; destruct C as [->| ->]; [auto|right; now apply lang_char_iff]|].
    apply lang_cat_iff. exists fp, ex. split; [reflexivity|]. split; [now apply lang_digits1|].
    apply lang_opt_iff. destruct E as [->|(e & es & ds & -> & E1 & E2 & E3 & E4)]; [auto|right].
    apply lang_cat_iff. exists [e], (es ++ ds). split; [reflexivity|].
    split; [constructor; apply oneof_In; destruct E1 as [->| ->]; cbn; auto|].
    apply lang_cat_iff. exists es, ds. split; [reflexivity|]. split; [now apply lang_sign|now apply lang_digits1].
Qed.
Lemma boolean_lang s : regex_match boolean_regex s = true <-> bool_text s.
Proof. rewrite regex_match_lang. unfold boolean_regex, bool_text. now rewrite lang_alt_iff, !lang_word_iff. Qed.
Lemma string_starts s : regex_match string_regex s = true -> exists w, s = quote :: w.
Proof.
  rewrite regex_match_lang. unfold string_regex. intros L. apply lang_cat_iff in L as (u & v & -> & A & _).
  apply lang_char_iff in A. subst u. exists v. reflexivity.
Qed.

(** First characters. *)
Lemma digit_not_quote : ~ is_digit quote.
Proof. intros D. apply digit_range in D. vm_compute in D. discriminate. Qed.
Lemma int_first s : int_text s -> exists c w, s = c :: w /\ (is_digit c \/ c = "-"%char \/ c = "+"%char).
Proof.
  intros (sg & body & -> & A & B).
  assert (Q : exists c w, body = c :: w /\ is_digit c).
  { destruct B as [->|(d & ds & -> & D & _)]; [|eauto]. eexists. eexists. split; [reflexivity|]. cbn; auto. }
  destruct Q as (c & w & -> & D). destruct A as [->|[->| ->]]; cbn; eauto 6.
Qed.
Lemma float_first s : float_text s -> exists c w, s = c :: w /\ (is_digit c \/ c = "-"%char \/ c = "+"%char \/ c = "."%char).
Proof.
  intros (sg & ip & dot & fp & ex & -> & A & B & C & D1 & D2 & _).
  destruct A as [->|[->| ->]]; [|cbn; eauto 7|cbn; eauto 7].
  destruct ip as [|c ip]; [|inversion B; subst; cbn; eauto 7].
  destruct C as [->| ->]; [|cbn; eauto 7].
  destruct fp as [|c fp]; [easy|]. inversion D1; subst. cbn; eauto 7.
Qed.

(** *** Theorems *)
Theorem c46_none : forall s, parse_type s = TNone <-> s = [].
Proof.
  intros s. split; [|now intros ->]. destruct s as [|c s]; [reflexivity|]. unfold parse_type.
  repeat match goal with |- context[if ?b then _ else _] => destruct b end; discriminate.
Qed.
Theorem c46_bool : forall s, parse_type s = TBool <-> bool_text s.
Proof.
  intros s. split.
  - destruct s as [|c s]; [discriminate|]. unfold parse_type.
    destruct (regex_match string_regex _); [discriminate|]. destruct (regex_match boolean_regex _) eqn:E; [intros _; now apply boolean_lang|].
    repeat match goal with |- context[if ?b then _ else _] => destruct b end; discriminate.
  - intros [->| ->]; reflexivity.
Qed.
Lemma no_string_regex s : (exists c w, s = c :: w /\ c <> quote) -> regex_match string_regex s = false.
Proof.
  intros (c & w & -> & N). destruct (regex_match string_regex (c :: w)) eqn:E; [|reflexivity].
  apply string_starts in E as (v & Q). congruence.
Qed.
Lemma numeric_first c : is_digit c \/ c = "-"%char \/ c = "+"%char \/ c = "."%char -> c <> quote /\ c <> "t"%char /\ c <> "f"%char.
Proof.
  intros [D|[->|[->| ->]]]; repeat split; try discriminate; intros ->.
  - now apply digit_not_quote.
  - apply digit_range in D. discriminate.
  - apply digit_range in D. discriminate.
Qed.
Lemma no_bool_regex s : (exists c w, s = c :: w /\ c <> "t"%char /\ c <> "f"%char) -> regex_match boolean_regex s = false.
Proof.
  intros (c & w & -> & N1 & N2). destruct (regex_match boolean_regex (c :: w)) eqn:E; [|reflexivity].
  apply boolean_lang in E as [E|E]; cbn in E; congruence.
Qed.
Theorem c46_int : forall s, parse_type s = TInt <-> int_text s.
Proof.
  intros s. split.
  - destruct s as [|c s]; [discriminate|]. unfold parse_type.
    destruct (regex_match string_regex _); [discriminate|]. destruct (regex_match boolean_regex _); [discriminate|].
    destruct (regex_match integer_regex _) eqn:E; [intros _; now apply integer_lang|].
    repeat match goal with |- context[if ?b then _ else _] => destruct b end; discriminate.
  - intros I. pose proof (proj2 (integer_lang s) I) as M. apply int_first in I as (c & w & -> & F).
    assert (G : is_digit c \/ c = "-"%char \/ c = "+"%char \/ c = "."%char) by tauto.
    apply numeric_first in G as (N1 & N2 & N3). unfold parse_type.
    rewrite no_string_regex by eauto. rewrite no_bool_regex by eauto. now rewrite M.
Qed.
Theorem c46_float : forall s, parse_type s = TFloat <-> float_text s /\ ~ int_text s.
Proof.
  intros s. split.
  - intros P. split; [|intros I; apply c46_int in I; congruence]. revert P. destruct s as [|c s]; [discriminate|]. unfold parse_type.
    destruct (regex_match string_regex _); [discriminate|]. destruct (regex_match boolean_regex _); [discriminate|].
    destruct (regex_match integer_regex _); [discriminate|]. destruct (regex_match float_regex _) eqn:E; [intros _; now apply float_lang|discriminate].
  - intros [F NI]. pose proof (proj2 (float_lang s) F) as M. apply float_first in F as (c & w & -> & F).
    apply numeric_first in F as (N1 & N2 & N3).
    assert (MI : regex_match integer_regex (c :: w) = false).
    { destruct (regex_match integer_regex (c :: w)) eqn:E; [|reflexivity]. apply integer_lang in E. contradiction. }
    unfold parse_type. rewrite no_string_regex by eauto. rewrite no_bool_regex by eauto. now rewrite MI, M.
Qed.
Theorem c46_string : forall s, parse_type s = TString <-> s <> [] /\ ~ bool_text s /\ ~ int_text s /\ ~ float_text s.
Proof.
  intros s. rewrite <- c46_bool, <- c46_int. split.
  - intros P. rewrite P. split; [intros ->; discriminate|]. split; [discriminate|]. split; [discriminate|].
    intros F. assert (parse_type s = TFloat) by (apply c46_float; split; [assumption|rewrite <- c46_int, P; discriminate]). congruence.
  - intros (A & B & C & D).
    assert (Q : parse_type s <> TFloat) by (rewrite c46_float; tauto).
    assert (N : parse_type s <> TNone) by (rewrite c46_none; tauto).
    revert A B C Q N. destruct s as [|c s]; [easy|]. unfold parse_type.
    repeat match goal with |- context[if ?b then _ else _] => destruct b end; congruence.
Qed.
(** Every integer is also in the language of the float pattern: the order of the tests
    decides. *)
Theorem c46_int_is_float_text : forall s, int_text s -> float_text s.
Proof.
  intros s (sg & body & -> & A & B). exists sg, [], [], body, []. rewrite app_nil_r. cbn [app].
  split; [reflexivity|]. split; [assumption|]. split; [constructor|]. split; [auto|].
  destruct B as [->|(d & ds & -> & D1 & D2 & D3)].
  - split; [repeat constructor|]. split; [discriminate|auto].
  - split; [now constructor|]. split; [discriminate|auto].
Qed.
Theorem c46_vector : forall fields, parse_types fields = Ok (map parse_type fields).
Proof.
  intros fields. unfold parse_types. rewrite (for_fill (fun i => parse_type (nth i fields []))).
  - f_equal. apply (list_ext_nth TNone).
    + rewrite tab_length. now rewrite map_length.
    + intros i Hi. rewrite tab_length in Hi. rewrite nth_tab by exact Hi. change TNone with (parse_type []). now rewrite map_nth.
  - apply repeat_length.
  - intros i ret Hi Hl. rewrite (rd_nth fields i []) by exact Hi. cbn [bind]. apply wr_ok. lia.
Qed.

(** *** Printing then inferring *)
Lemma digit_is d : d < 10 -> is_digit (digit d) /\ digit_value (digit d) = Z.of_nat d /\ (d <> 0 -> digit d <> "0"%char).
Proof.
  intros Hd. do 10 (destruct d as [|d]; [split; [cbn; tauto|split; [reflexivity|intros; discriminate || easy]]|]). lia.
Qed.
Lemma digits_value_app u c : digits_value (u ++ [c]) = (digits_value u * 10 + digit_value c)%Z.
Proof. unfold digits_value. now rewrite fold_left_app. Qed.
Lemma digits_rev_spec f : forall n, (0 <= n < 2 ^ Z.of_nat f)%Z -> f <> 0 ->
  let s := rev (digits_rev f n) in all_digits s /\ digits_value s = n /\ s <> [] /\
  (n <> 0%Z -> exists d ds, s = d :: ds /\ d <> "0"%char) /\ (n = 0%Z -> s = txt "0").
Proof.
  induction f as [|f IH]; intros n Hn Hf; [easy|]. cbn [digits_rev].
  assert (Hm : Z.to_nat (n mod 10) < 10) by (pose proof (Z.mod_pos_bound n 10); lia).
  destruct (digit_is _ Hm) as (D1 & D2 & D3).
  assert (M0 : (0 <= n mod 10 < 10)%Z) by (apply Z.mod_pos_bound; lia).
  destruct (Z.ltb_spec n 10) as [L|L].
  - rewrite Z.mod_small in * by lia. cbn [rev app]. split; [constructor; [exact D1|constructor]|]. unfold digits_value. cbn [fold_left].
    split; [rewrite D2; lia|]. split; [discriminate|]. split.
    + intros N. eexists. eexists. split; [reflexivity|]. apply D3. lia.
    + intros ->. reflexivity.
  - assert (Hf0 : f <> 0).
    { intros ->. cbn in Hn. lia. }
    destruct (IH (n / 10)%Z) as (A & B & C & D & _).
    { split; [apply Z.div_pos; lia|]. apply Z.div_lt_upper_bound; [lia|]. rewrite Nat2Z.inj_succ, Z.pow_succ_r in Hn by lia. lia. }
    { exact Hf0. }
    cbn [rev]. split; [|split; [|split; [|split]]].
    + apply Forall_app. split; [exact A|constructor; [exact D1|constructor]].
    + rewrite digits_value_app, B, D2. pose proof (Z.div_mod n 10). lia.
    + intros E. now apply app_eq_nil in E as [_ E].
    + intros _. destruct D as (d & ds & E & N).
      * intros Z0. pose proof (Z.div_mod n 10). lia.
      * rewrite E. cbn [app]. eauto.
    + lia.
Qed.
Lemma print_nonneg_spec n : (0 <= n)%Z ->
  let s := print_nonneg n in all_digits s /\ digits_value s = n /\
  (s = txt "0" \/ exists d ds, s = d :: ds /\ is_digit d /\ d <> "0"%char /\ all_digits ds).
Proof.
  intros Hn s. unfold s, print_nonneg.
  assert (L : (1 <= Z.log2_up (n + 2))%Z).
  { change 1%Z with (Z.log2_up 2). apply Z.log2_up_le_mono. lia. }
  destruct (digits_rev_spec (Z.to_nat (Z.log2_up (n + 2))) n) as (A & B & C & D & E); [|lia|].
  - rewrite Z2Nat.id by lia. pose proof (Z.log2_up_spec (n + 2)). lia.
  - split; [exact A|]. split; [exact B|]. destruct (Z.eq_dec n 0) as [Z0|Z0]; [left; auto|right].
    destruct (D Z0) as (d & ds & Q & N). rewrite Q in *. inversion A; subst. exists d, ds. auto.
Qed.
Theorem c46_print_int : forall n, parse_type (print_int n) = TInt.
Proof.
  intros n. apply c46_int. unfold print_int, int_text. destruct (Z.ltb_spec n 0) as [L|L].
  - destruct (print_nonneg_spec (- n)) as (_ & _ & Q); [lia|]. exists (txt "-"), (print_nonneg (- n)). split; [reflexivity|].
    split; [unfold is_sign; auto|exact Q].
  - destruct (print_nonneg_spec n) as (_ & _ & Q); [lia|]. exists [], (print_nonneg n). split; [reflexivity|].
    split; [unfold is_sign; auto|exact Q].
Qed.
(** The printed text determines the integer. *)
Definition int_value (s : text) : Z :=
  match s with c :: w => if Ascii.eqb c "-" then - digits_value w else digits_value s | [] => 0 end.
Theorem c46_print_int_value : forall n, int_value (print_int n) = n.
Proof.
  intros n. unfold print_int. destruct (Z.ltb_spec n 0) as [L|L].
  - destruct (print_nonneg_spec (- n)) as (_ & E & _); [lia|]. cbn [int_value Ascii.eqb Bool.eqb]. rewrite E. lia.
  - destruct (print_nonneg_spec n) as (A & E & Q); [lia|]. set (s := print_nonneg n) in *. destruct s as [|c w].
    + destruct Q as [Q|(? & ? & Q & _)]; discriminate.
    + cbn [int_value]. destruct (Ascii.eqb_spec c "-") as [->|_]; [|exact E].
      inversion A as [|? ? D _]; subst. apply digit_range in D. discriminate.
Qed.
Theorem c46_print_bool : forall b, parse_type (print_bool b) = TBool /\ read_bool (print_bool b) = b.
Proof. destruct b; split; reflexivity. Qed.

(** *** Cases *)
Example c46_texts :
  parse_type (txt "-120") = TInt /\ parse_type (txt "007") = TFloat /\ parse_type (txt "1.") = TString /\
  parse_type (txt ".5e-3") = TFloat /\ parse_type (txt "True") = TString /\ parse_type (txt "0x10") = TString /\
  parse_type (txt " 1") = TString /\ parse_type (txt "+0") = TInt /\ print_int (-9223372036854775808)%Z = txt "-9223372036854775808".
Proof. repeat split; vm_compute; reflexivity. Qed.

Print Assumptions c46_none.
Print Assumptions c46_bool.
Print Assumptions c46_int.
Print Assumptions c46_float.
Print Assumptions c46_string.
Print Assumptions c46_int_is_float_text.
Print Assumptions c46_vector.
Print Assumptions c46_print_int.
Print Assumptions c46_print_int_value.
Print Assumptions c46_print_bool.
