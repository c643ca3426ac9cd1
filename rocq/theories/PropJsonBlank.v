(** C88: blanks between the tokens of a JSON text. *)
From Coq Require Import Ascii String Sorted Reals.
From Verif Require Import Base TypeModel PropTypes StreamModel JsonModel PropJson DumpModel PropDump JsonConvModel PropJsonConv.
Local Open Scope list_scope.
Local Open Scope nat_scope.
Local Notation length := List.length.

(** *** Specification *)
(** The blanks of JSON: space, tab, line feed, carriage return. *)
Definition json_space (c : ascii) : Prop := In c [" "; "009"; "010"; "013"]%char.
Definition gap (w : text) : Prop := Forall json_space w.
(** The texts of a document: blanks before and after every token. *)
Fixpoint written (d : json) (t : text) : Prop :=
  exists w1 u w2, gap w1 /\ gap w2 /\ t = w1 ++ u ++ w2 /\
  match d with
  | JNull => False
  | JLeaf v ty => u = print (JLeaf v ty)
  | JList l => exists ts, u = "["%char :: commas ts ++ ["]"%char] /\
      (fix all l ts := match l, ts with [], [] => True | x :: l, t :: ts => written x t /\ all l ts | _, _ => False end) l ts
  | JDict m => exists ts, u = "{"%char :: commas ts ++ ["}"%char] /\
      (fix all (m : list (text * json)) ts := match m, ts with
         | [], [] => True
         | (k, x) :: m, t :: ts => (exists w3 w4 t', gap w3 /\ gap w4 /\ t = w3 ++ quote :: k ++ quote :: w4 ++ ":"%char :: t' /\ written x t') /\ all m ts
         | _, _ => False end) m ts
  end.
(** Blanks around numbers and truth values only. *)
Fixpoint spaced (d : json) (t : text) : Prop :=
  match d with
  | JNull => False
  | JLeaf v TString => t = print (JLeaf v TString)
  | JLeaf v _ => exists w1 w2, gap w1 /\ gap w2 /\ t = w1 ++ v ++ w2
  | JList l => exists ts, t = "["%char :: commas ts ++ ["]"%char] /\
      (fix all l ts := match l, ts with [], [] => True | x :: l, t :: ts => spaced x t /\ all l ts | _, _ => False end) l ts
  | JDict m => exists ts, t = "{"%char :: commas ts ++ ["}"%char] /\
      (fix all (m : list (text * json)) ts := match m, ts with
         | [], [] => True
         | (k, x) :: m, t :: ts => (exists t', t = quote :: k ++ quote :: ":"%char :: t' /\ spaced x t') /\ all m ts
         | _, _ => False end) m ts
  end.
(** The same document, with the blanks in the texts of its leaves, which are then texts. *)
Fixpoint with_blanks (d d' : json) : Prop :=
  match d, d' with
  | JLeaf v TString, JLeaf v' t' => v' = v /\ t' = TString
  | JLeaf v _, JLeaf v' t' => exists w1 w2, gap w1 /\ gap w2 /\ v' = w1 ++ v ++ w2 /\ (w1 ++ w2 = [] -> t' = parse_type v) /\ (w1 ++ w2 <> [] -> t' = TString)
  | JList l, JList l' => (fix all l l' := match l, l' with [], [] => True | x :: l, y :: l' => with_blanks x y /\ all l l' | _, _ => False end) l l'
  | JDict m, JDict m' => (fix all (m m' : list (text * json)) := match m, m' with [], [] => True | (k, x) :: m, (k', y) :: m' => k' = k /\ with_blanks x y /\ all m m' | _, _ => False end) m m'
  | _, _ => False
  end.
(** The same lists, keys and strings; numbers of the same value. *)
Fixpoint same_numbers (d d' : json) : Prop :=
  match d, d' with
  | JLeaf v TString, JLeaf v' t' => v' = v /\ t' = TString
  | JLeaf _ _, JLeaf _ _ => (forall ty, int_type ty -> as_num ty d' = as_num ty d) /\ (forall fl, as_double fl d' = as_double fl d)
  | JList l, JList l' => (fix all l l' := match l, l' with [], [] => True | x :: l, y :: l' => same_numbers x y /\ all l l' | _, _ => False end) l l'
  | JDict m, JDict m' => (fix all (m m' : list (text * json)) := match m, m' with [], [] => True | (k, x) :: m, (k', y) :: m' => k' = k /\ same_numbers x y /\ all m m' | _, _ => False end) m m'
  | _, _ => False
  end.
(** What reading a text gives, given enough steps. *)
Definition read_as (t : text) (r : res json) : Prop :=
  exists f0, forall f, f0 <= f ->
    match read_item f (s_open t), r with
    | Some (Ok (d, _)), Ok d' => d = d'
    | Some Throw, Throw => True
    | Some UB, UB => True
    | _, _ => False
    end.

(** *** Conversions do not see blanks around numbers *)
Lemma gap_blank w : gap w -> blank w.
Proof. apply Forall_impl. intros c. unfold json_space, is_space. cbn. intuition. Qed.
Lemma gap_app a b : gap a -> gap b -> gap (a ++ b).
Proof. intros A B. apply Forall_app. auto. Qed.
Lemma gap_first c w : gap (c :: w) -> json_space c.
Proof. intros G. now inversion G. Qed.
Lemma space_not_digit c : json_space c -> range "0" "9" c = false.
Proof. intros [<-|[<-|[<-|[<-|[]]]]]; reflexivity. Qed.
Lemma take_digits_gap s : forall w, gap w -> take_digits (s ++ w) = (fst (take_digits s), snd (take_digits s) ++ w).
Proof.
  induction s as [|c s IH]; intros w G.
  - destruct w as [|c w]; [reflexivity|]. cbn [app take_digits]. now rewrite space_not_digit by now apply gap_first in G.
  - cbn [app take_digits]. destruct (range "0" "9" c); [|reflexivity]. rewrite IH by exact G. now destruct (take_digits s).
Qed.
Lemma skip_gap s w : skip_space s <> [] -> skip_space (s ++ w) = skip_space s ++ w.
Proof.
  induction s as [|c s IH]; [easy|]. cbn [app skip_space]. destruct (_ || _); [exact IH|reflexivity].
Qed.
Lemma take_sign_gap s w : s <> [] -> take_sign (s ++ w) = (fst (take_sign s), snd (take_sign s) ++ w).
Proof. destruct s as [|c s]; [easy|]. intros _. cbn [app take_sign]. destruct (Ascii.eqb c "-"); [reflexivity|]. now destruct (Ascii.eqb c "+"). Qed.
Lemma num_gap ty w1 v w2 t t' : int_type ty -> gap w1 -> gap w2 -> as_num ty (JLeaf (w1 ++ v ++ w2) t') = as_num ty (JLeaf v t).
Proof.
  intros T G1 G2. apply gap_blank in G1. destruct (c79_every_text v) as [B|(neg & ds & rest & St)].
  - unfold as_num, as_leaf, convert_int. apply gap_blank in G2. rewrite (proj1 (blank_iff v) B).
    rewrite (proj1 (blank_iff (w1 ++ v ++ w2))); [reflexivity|]. repeat (apply Forall_app; split; auto).
  - assert (St' : starts (w1 ++ v ++ w2) neg ds (rest ++ w2)).
    { destruct St as (ws & sg & -> & B & A & Sg & N). exists (w1 ++ ws), sg. split; [now rewrite <- !app_assoc|].
      split; [now apply Forall_app|]. split; [exact A|]. split; [exact Sg|].
      destruct rest as [|c r]; [|exact N]. cbn [app]. destruct w2 as [|c w]; [exact N|]. apply gap_first in G2. split; [|intros E; now rewrite E in N].
      intros D. apply digit_range in D. now rewrite space_not_digit in D. }
    destruct (convert_int_spec ty _ _ _ _ T St) as (o1 & E1 & _). destruct (convert_int_spec ty _ _ _ _ T St') as (o2 & E2 & _).
    unfold as_num, as_leaf. now rewrite E1, E2.
Qed.
Lemma double_gap fl w1 v w2 t t' : gap w1 -> gap w2 -> as_double fl (JLeaf (w1 ++ v ++ w2) t') = as_double fl (JLeaf v t).
Proof.
  intros G1 G2. apply gap_blank in G1. unfold as_double, as_leaf, read_double. rewrite (skip_blank w1) by exact G1.
  destruct (skip_space v) as [|c s] eqn:E.
  - rewrite (proj1 (blank_iff (v ++ w2))); [reflexivity|]. apply Forall_app. split; [now apply blank_iff|now apply gap_blank].
  - rewrite skip_gap by congruence. rewrite E. cbn [app]. rewrite app_comm_cons, take_sign_gap by discriminate.
    destruct (take_sign (c :: s)) as [neg s1]. cbn [fst snd]. rewrite take_digits_gap by exact G2. destruct (take_digits s1) as [ip s2]. cbn [fst snd].
    assert (X : forall fp s3 s4, (s4 = s3 ++ w2) ->
      match s4 with
      | [] => Ok (DFin neg (fl (IZR (dec_value (ip ++ fp)) * powerRZ 10 (0 - Z.of_nat (length fp))%Z)%R))
      | c :: w => if Ascii.eqb c "e" || Ascii.eqb c "E" then
            let '(eneg, w) := take_sign w in
            match fst (take_digits w) with
            | [] => Ok (DFin false 0%R)
            | es => Ok (DFin neg (fl (IZR (dec_value (ip ++ fp)) * powerRZ 10 ((if eneg then (- dec_value es)%Z else dec_value es) - Z.of_nat (length fp))%Z)%R))
            end
          else Ok (DFin neg (fl (IZR (dec_value (ip ++ fp)) * powerRZ 10 (0 - Z.of_nat (length fp))%Z)%R))
      end =
      match s3 with
      | [] => Ok (DFin neg (fl (IZR (dec_value (ip ++ fp)) * powerRZ 10 (0 - Z.of_nat (length fp))%Z)%R))
      | c :: w => if Ascii.eqb c "e" || Ascii.eqb c "E" then
            let '(eneg, w) := take_sign w in
            match fst (take_digits w) with
            | [] => Ok (DFin false 0%R)
            | es => Ok (DFin neg (fl (IZR (dec_value (ip ++ fp)) * powerRZ 10 ((if eneg then (- dec_value es)%Z else dec_value es) - Z.of_nat (length fp))%Z)%R))
            end
          else Ok (DFin neg (fl (IZR (dec_value (ip ++ fp)) * powerRZ 10 (0 - Z.of_nat (length fp))%Z)%R))
      end).
    { intros fp s3 s4 ->. destruct s3 as [|c3 s3]; cbn [app].
      - destruct w2 as [|b w]; [reflexivity|]. apply gap_first in G2. destruct G2 as [<-|[<-|[<-|[<-|[]]]]]; reflexivity.
      - destruct (_ || _); [|reflexivity]. destruct s3 as [|c4 s3]; cbn [app].
        + destruct w2 as [|b w]; [reflexivity|]. apply gap_first in G2. destruct G2 as [<-|[<-|[<-|[<-|[]]]]]; reflexivity.
        + rewrite app_comm_cons, take_sign_gap by discriminate. destruct (take_sign (c4 :: s3)) as [en s5]. cbn [fst snd]. now rewrite take_digits_gap. }
    assert (Y : (let '(fp, s) := match s2 ++ w2 with c :: w => if Ascii.eqb c "." then take_digits w else ([], s2 ++ w2) | [] => ([], []) end in (fp, s)) =
      let '(fp, s) := match s2 with c :: w => if Ascii.eqb c "." then take_digits w else ([], s2) | [] => ([], []) end in (fp, s ++ w2)).
    { destruct s2 as [|c2 s2]; cbn [app].
      - destruct w2 as [|b w]; [reflexivity|]. apply gap_first in G2. destruct G2 as [<-|[<-|[<-|[<-|[]]]]]; reflexivity.
      - destruct (Ascii.eqb c2 "."); [|reflexivity]. rewrite take_digits_gap by exact G2. now destruct (take_digits s2). }
    destruct (match s2 ++ w2 with c :: w => if Ascii.eqb c "." then take_digits w else ([], s2 ++ w2) | [] => ([], []) end) as [fp' s4].
    destruct (match s2 with c :: w => if Ascii.eqb c "." then take_digits w else ([], s2) | [] => ([], []) end) as [fp s3].
    injection Y as -> Y. specialize (X fp s3 s4 Y). destruct (ip ++ fp); [reflexivity|exact X].
Qed.

(** *** A text with a blank in it has the type of texts *)
Lemma blank_digits c s : json_space c -> all_digits s -> ~ In c s.
Proof.
  intros J A I. unfold all_digits in A. rewrite Forall_forall in A. specialize (A _ I). apply digit_range in A. now rewrite space_not_digit in A.
Qed.
Lemma blank_sign c s : json_space c -> is_sign s -> ~ In c s.
Proof. intros J [->|[->| ->]]; [easy| |]; intros [<-|[]]; destruct J as [J|[J|[J|[J|[]]]]]; discriminate. Qed.
Lemma blank_type c s : json_space c -> In c s -> parse_type s = TString.
Proof.
  intros J I. destruct s as [|a s]; [easy|]. unfold parse_type. destruct (regex_match string_regex (a :: s)); [reflexivity|].
  assert (Z1 : forall u, In c u -> u = txt "0" -> False) by (intros u Iu ->; destruct J as [<-|[<-|[<-|[<-|[]]]]]; cbn in Iu; intuition discriminate).
  destruct (regex_match boolean_regex (a :: s)) eqn:E1.
  { apply boolean_lang in E1. exfalso. destruct E1 as [E1|E1]; rewrite E1 in I; destruct J as [<-|[<-|[<-|[<-|[]]]]]; cbn in I; intuition discriminate. }
  destruct (regex_match integer_regex (a :: s)) eqn:E2.
  { apply integer_lang in E2 as (sg & body & E & A & B). rewrite E in I. exfalso. apply in_app_iff in I as [I|I]; [now apply (blank_sign c sg)|].
    destruct B as [B|(d & ds & -> & D & _ & A2)]; [eauto|]. apply (blank_digits c (d :: ds)); auto. now constructor. }
  destruct (regex_match float_regex (a :: s)) eqn:E3; [|reflexivity].
  apply float_lang in E3 as (sg & ip & dot & fp & ex & E & A & B & C & D & _ & X). rewrite E in I. exfalso.
  apply in_app_iff in I as [I|I]; [now apply (blank_sign c sg)|]. apply in_app_iff in I as [I|I]; [now apply (blank_digits c ip)|].
  apply in_app_iff in I as [I|I]. { destruct C as [->| ->]; [easy|]. destruct I as [<-|[]]. destruct J as [J|[J|[J|[J|[]]]]]; discriminate. }
  apply in_app_iff in I as [I|I]; [now apply (blank_digits c fp)|]. destruct X as [->|(e & es & ds & -> & Ee & Se & Ad & _)]; [easy|].
  destruct I as [<-|I]; [destruct Ee as [->| ->]; destruct J as [J|[J|[J|[J|[]]]]]; discriminate|].
  apply in_app_iff in I as [I|I]; [now apply (blank_sign c es)|now apply (blank_digits c ds)].
Qed.
Lemma gap_type w1 v w2 : gap w1 -> gap w2 -> w1 ++ w2 <> [] -> parse_type (w1 ++ v ++ w2) = TString.
Proof.
  intros G1 G2 N. assert (X : exists c, json_space c /\ In c (w1 ++ v ++ w2)); [|destruct X as (c & J & I); now apply (blank_type c)].
  destruct w1 as [|c w1].
  - destruct w2 as [|c w2]; [easy|]. exists c. split; [now apply gap_first in G2|]. apply in_app_iff. right. apply in_app_iff. right. now left.
  - exists c. split; [now apply gap_first in G1|now left].
Qed.
Lemma gap_notin c w : gap w -> ~ json_space c -> ~ In c w.
Proof. intros G N I. unfold gap in G. rewrite Forall_forall in G. now apply N, G. Qed.
Lemma gap_plain w1 v w2 : gap w1 -> gap w2 -> plain v -> plain (w1 ++ v ++ w2).
Proof.
  intros G1 G2 (P1 & P2 & P3 & P4).
  assert (X : forall c, ~ In c v -> ~ json_space c -> ~ In c (w1 ++ v ++ w2)).
  { intros c N J I. apply in_app_iff in I as [I|I]; [now apply (gap_notin c w1)|]. apply in_app_iff in I as [I|I]; [auto|now apply (gap_notin c w2)]. }
  assert (J : forall c, json_space c -> c <> quote /\ c <> "["%char /\ c <> "{"%char).
  { intros c [<-|[<-|[<-|[<-|[]]]]]; repeat split; discriminate. }
  assert (N : forall c, In c [","; "]"; "}"]%char -> ~ json_space c).
  { intros c I [K|[K|[K|[K|[]]]]]; subst c; cbn in I; intuition discriminate. }
  split; [apply X; [exact P1|apply N; cbn; auto]|]. split; [apply X; [exact P2|apply N; cbn; auto]|]. split; [apply X; [exact P3|apply N; cbn; auto]|].
  intros c w E. destruct w1 as [|b w1]; [|injection E as <- _; apply J; now apply gap_first in G1].
  destruct v as [|b v]; [|injection E as <- _; now apply (P4 b v)]. cbn [app] in E. subst w2. apply J. now apply gap_first in G2.
Qed.

(** *** The document whose printed form the text is *)
Definition holds2 {A B} (P : A -> B -> Prop) := fix all (l : list A) (l' : list B) : Prop :=
  match l, l' with [], [] => True | x :: l, y :: l' => P x y /\ all l l' | _, _ => False end.
Lemma doc_of_text : forall d, wf d -> forall t, spaced d t ->
  exists d1, print d1 = t /\ wf d1 /\ with_blanks d (retype d1) /\ (print d <> [] -> t <> []).
Proof.
  induction d as [|v ty|l IH|m IH] using json_ind'; intros W t Sp; [destruct Sp| | |].
  - assert (Q : ty = TString \/ ty <> TString) by (destruct ty; (now left) || (right; discriminate)). destruct Q as [->|Q].
    + cbn [spaced] in Sp. subst t. exists (JLeaf v TString). cbn [print retype with_blanks]. auto.
    + assert (Sp' : exists w1 w2, gap w1 /\ gap w2 /\ t = w1 ++ v ++ w2) by (destruct ty; try exact Sp; contradiction).
      destruct Sp' as (w1 & w2 & G1 & G2 & ->). exists (JLeaf (w1 ++ v ++ w2) ty). 
      assert (Wp : plain v) by (destruct ty; try exact W; contradiction). pose proof (gap_plain w1 v w2 G1 G2 Wp) as Pl.
      split; [destruct ty; (reflexivity || contradiction)|]. split; [destruct ty; (exact Pl || contradiction)|]. split.
      * assert (X : exists w1' w2', gap w1' /\ gap w2' /\ w1 ++ v ++ w2 = w1' ++ v ++ w2' /\ (w1' ++ w2' = [] -> parse_type (w1 ++ v ++ w2) = parse_type v) /\ (w1' ++ w2' <> [] -> parse_type (w1 ++ v ++ w2) = TString)).
        { exists w1, w2. split; [exact G1|]. split; [exact G2|]. split; [reflexivity|]. split; [|now apply gap_type].
          intros E. apply app_eq_nil in E as (-> & ->). now rewrite app_nil_r. }
        destruct ty; (exact X || contradiction).
      * intros Ne E. apply app_eq_nil in E as (-> & E). apply app_eq_nil in E as (-> & ->). destruct ty; (now apply Ne) || contradiction.
  - destruct Sp as (ts & -> & Al). cbn [wf] in W. destruct W as (Ne & La & Wl). apply wf_list_all in Wl.
    assert (X : exists l1, map print l1 = ts /\ Forall wf l1 /\ holds2 with_blanks l (map retype l1) /\ length l1 = length l /\ (print (last l JNull) <> [] -> print (last l1 JNull) <> [])).
    { clear Ne La. revert ts Al. induction l as [|x l IHl]; intros [|t ts] Al; try (now destruct Al).
      - exists []. repeat split; auto.
      - destruct Al as (Sx & Al). inversion Wl as [|? ? Wx Wl']; subst. inversion IH as [|? ? Ix Il]; subst.
        destruct (Ix Wx t Sx) as (x1 & P1 & W1 & B1 & N1). destruct (IHl Il Wl' ts Al) as (l1 & P2 & W2 & B2 & Le & N2).
        exists (x1 :: l1). cbn [map length]. split; [now rewrite P1, P2|]. split; [now constructor|]. split; [now split|]. split; [now rewrite Le|].
        destruct l as [|y l], l1 as [|y1 l1]; try discriminate Le; cbn [last]; [now rewrite P1|exact N2]. }
    destruct X as (l1 & P1 & W1 & B1 & Le & La1). exists (JList l1). cbn [print]. rewrite P1. split; [reflexivity|]. split; [|split; [exact B1|discriminate]].
    cbn [wf]. split; [intros ->; now destruct l|]. split; [destruct La as [La|La]; [left; now rewrite Le|right; auto]|].
    clear - W1. induction W1 as [|x l Wx Wl IH]; [exact I|]. split; [exact Wx|exact IH].
  - destruct Sp as (ts & -> & Al). cbn [wf] in W. destruct W as (Ne & So & Wl). apply wf_dict_all in Wl as (Qk & Wl).
    assert (X : exists m1, map (fun p => quote :: fst p ++ quote :: ":"%char :: print (snd p)) m1 = ts /\ Forall (fun p => wf (snd p)) m1 /\ keys m1 = keys m /\
      (fix all (m m' : list (text * json)) := match m, m' with [], [] => True | (k, x) :: m, (k', y) :: m' => k' = k /\ with_blanks x y /\ all m m' | _, _ => False end) m (map (fun p => (fst p, retype (snd p))) m1)).
    { clear Ne So Qk. revert ts Al. induction m as [|[k x] m IHm]; intros [|t ts] Al; try (now destruct Al).
      - exists []. repeat split; auto.
      - destruct Al as ((t' & -> & Sx) & Al). inversion Wl as [|? ? Wx Wl']; subst. inversion IH as [|? ? Ix Il]; subst. cbn [snd] in Ix, Wx.
        destruct (Ix Wx t' Sx) as (x1 & P1 & W1 & B1 & _). destruct (IHm Il Wl' ts Al) as (m1 & P2 & W2 & K2 & B2).
        exists ((k, x1) :: m1). cbn [map fst snd keys]. split; [now rewrite P1, P2|]. split; [now constructor|]. split; [unfold keys in K2; now rewrite K2|]. auto. }
    destruct X as (m1 & P1 & W1 & K1 & B1). exists (JDict m1). cbn [print]. rewrite P1. split; [reflexivity|]. split; [|split; [exact B1|discriminate]].
    cbn [wf]. split; [intros ->; now destruct m|]. split; [now rewrite K1|].
    assert (Q1 : Forall (fun k => ~ In quote k) (keys m1)). { rewrite K1. unfold keys. clear - Qk. induction Qk; cbn; constructor; auto. }
    clear - W1 Q1. induction m1 as [|[k x] m1 IH]; [exact I|]. inversion W1 as [|? ? Wx Wm]; subst. cbn [keys map fst] in Q1. inversion Q1 as [|? ? Qx Qm]; subst. split; [exact Qx|]. split; [exact Wx|]. exact (IH Wm Qm).
Qed.

(** *** C88 *)
(** The claim. *)
Definition blanks_do_not_matter : Prop := forall d t r, wf d -> written d t -> read_as (print d) r -> read_as t r.

(** Blanks around numbers and truth values become part of their texts; everything else is as
    without them. *)
Theorem c88_reads : forall d t, wf d -> print d <> [] -> spaced d t -> exists d', read_as t (Ok d') /\ with_blanks d d'.
Proof.
  intros d t W Ne Sp. destruct (doc_of_text d W t Sp) as (d1 & <- & W1 & B & N1). exists (retype d1). split; [|exact B].
  destruct (c44_roundtrip_partial d1 W1 (N1 Ne)) as (f0 & st & E). exists f0. intros f Hf. now rewrite E.
Qed.
Lemma with_same : forall d d', with_blanks d d' -> same_numbers d d'.
Proof.
  induction d as [|v ty|l IH|m IH] using json_ind'; intros [|v' ty'|l'|m'] B; try (now destruct B); try (exfalso; destruct ty; exact B).
  - assert (Q : ty = TString \/ ty <> TString) by (destruct ty; (now left) || (right; discriminate)). destruct Q as [->|Q]; [exact B|].
    assert (B' : exists w1 w2, gap w1 /\ gap w2 /\ v' = w1 ++ v ++ w2) by (destruct ty; try contradiction; destruct B as (w1 & w2 & ? & ? & ? & _); eauto 6).
    destruct B' as (w1 & w2 & G1 & G2 & ->).
    assert (X : (forall k, int_type k -> as_num k (JLeaf (w1 ++ v ++ w2) ty') = as_num k (JLeaf v ty)) /\ forall fl, as_double fl (JLeaf (w1 ++ v ++ w2) ty') = as_double fl (JLeaf v ty)).
    { split; [intros; now apply num_gap|intros; now apply double_gap]. }
    destruct ty; (exact X || contradiction).
  - cbn [with_blanks same_numbers] in *. revert l' B. induction l as [|x l IHl]; intros [|y l'] B; try (now destruct B). inversion IH as [|? ? Ix Il]; subst. destruct B as (B1 & B2). split; [exact (Ix y B1)|exact (IHl Il l' B2)].
  - cbn [with_blanks same_numbers] in *. revert m' B. induction m as [|[k x] m IHm]; intros [|[k' y] m'] B; try (now destruct B). inversion IH as [|? ? Ix Il]; subst. destruct B as (-> & B1 & B2). split; [reflexivity|]. split; [exact (Ix y B1)|exact (IHm Il m' B2)].
Qed.
(** The numbers keep their values, as integers of any type and as doubles. *)
Theorem c88_numbers : forall d t, wf d -> print d <> [] -> spaced d t -> exists d', read_as t (Ok d') /\ same_numbers d d'.
Proof. intros d t W Ne Sp. destruct (c88_reads d t W Ne Sp) as (d' & R & B). exists d'. split; [exact R|now apply with_same]. Qed.
(** A text that starts with a blank is read as one leaf, whatever follows. *)
Theorem c88_leading : forall c w, json_space c -> exists v ty, read_as (c :: w) (Ok (JLeaf v ty)).
Proof.
  intros c w J. assert (N : c <> "["%char /\ c <> "{"%char) by (destruct J as [<-|[<-|[<-|[<-|[]]]]]; split; discriminate). destruct N as (N1 & N2).
  destruct (c45_leaf_partial c w 0 N1 N2) as (v & ty & st & E). exists v, ty, 1. intros [|f] Hf; [lia|].
  cbn [read_item] in *. revert E. destruct (rd1 (s_open (c :: w)) None) as [[a|] st']; [|discriminate].
  destruct (Ascii.eqb a "["); [cbn [read_list]; now destruct (rd1 _ _)|]. destruct (Ascii.eqb a "{"); [cbn [read_dict]; now destruct (rd1 _ _)|]. intros [= E]. now rewrite E.
Qed.
Theorem c88_leading_refuted : exists d, wf d /\ (exists l, d = JList l) /\
  forall w, gap w -> w <> [] -> written d (w ++ print d) /\ exists v ty, read_as (w ++ print d) (Ok (JLeaf v ty)).
Proof.
  exists (JList [JLeaf (txt "1") TInt]). split; [|split; [eauto|]].
  - cbn [wf]. split; [discriminate|]. split; [now left|]. split; [|exact I]. repeat split; try (cbn; intuition discriminate). all: injection H as <- _; discriminate.
  - intros w G N. split.
    + cbn [written]. exists w, (print (JList [JLeaf (txt "1") TInt])), []. rewrite app_nil_r. split; [exact G|]. split; [constructor|]. split; [reflexivity|].
      exists [txt "1"]. split; [reflexivity|]. split; [|exact I]. exists [], (txt "1"), []. repeat split; constructor.
    + destruct w as [|c w]; [easy|]. apply c88_leading. now apply gap_first in G.
Qed.

(** What becomes of documents of a few tokens. *)
Ltac run := exists 20; intros f Hf; do 20 (destruct f as [|f]; [lia|]); vm_compute; exact I || reflexivity.
Ltac decide_wf := cbn [wf]; repeat split; try discriminate; try (now left); try (right; discriminate); repeat constructor;
  try (cbn; intuition discriminate); try (intros; match goal with E : _ = _ :: _ |- _ => injection E as <- _ end; discriminate).
Definition num (s : string) := JLeaf (txt s) TInt.
Definition str (s : string) := JLeaf (txt s) TString.
(** The text of the document, with the given blanks; what is read without and with them. *)
Definition misread (d : json) (t : string) (r : res json) : Prop :=
  wf d /\ written d (txt t) /\ read_as (print d) (Ok d) /\ read_as (txt t) r /\ r <> Ok d.
Lemma written_leaf v ty w1 w2 : gap w1 -> gap w2 -> written (JLeaf v ty) (w1 ++ print (JLeaf v ty) ++ w2).
Proof. intros A B. exists w1, (print (JLeaf v ty)), w2. auto. Qed.
Lemma written_list l ts w1 w2 t : gap w1 -> gap w2 -> holds2 written l ts -> t = w1 ++ ("["%char :: commas ts ++ ["]"%char]) ++ w2 -> written (JList l) t.
Proof. intros A B X ->. exists w1, ("["%char :: commas ts ++ ["]"%char]), w2. repeat (split; [assumption || reflexivity|]). exists ts. auto. Qed.
Lemma written_pair k x w1 w2 w3 w4 t t' : gap w1 -> gap w2 -> gap w3 -> gap w4 -> written x t' ->
  t = w1 ++ ("{"%char :: commas [w3 ++ quote :: k ++ quote :: w4 ++ ":"%char :: t'] ++ ["}"%char]) ++ w2 -> written (JDict [(k, x)]) t.
Proof.
  intros A B C D X ->. eexists w1, _, w2. split; [exact A|]. split; [exact B|]. split; [reflexivity|]. eexists. split; [reflexivity|]. split; [|exact I].
  exists w3, w4, t'. auto.
Qed.
Ltac gaps := unfold gap; repeat constructor; unfold json_space; cbn; tauto.
(** A string keeps its quotes, with a blank before it. *)
Theorem c88_string_refuted : misread (JList [num "1"; str "a"]) "[1, ""a""]" (Ok (JList [num "1"; JLeaf (txt " ""a""") TString])).
Proof.
  split; [decide_wf|]. split; [|split; [run|split; [run|discriminate]]].
  apply (written_list _ [txt "1"; txt " ""a"""] [] []); [gaps|gaps| |reflexivity]. split; [|split; [|exact I]].
  - apply (written_leaf (txt "1") TInt [] []); gaps.
  - apply (written_leaf (txt "a") TString (txt " ") []); gaps.
Qed.
(** A list after a blank is a text up to its closing bracket, which closes the outer list. *)
Theorem c88_nested_refuted : misread (JList [num "1"; JList [num "2"]]) "[1, [2]]" (Ok (JList [num "1"; JLeaf (txt " [2") TString])).
Proof.
  split; [decide_wf|]. split; [|split; [run|split; [run|discriminate]]].
  apply (written_list _ [txt "1"; txt " [2]"] [] []); [gaps|gaps| |reflexivity]. split; [|split; [|exact I]].
  - apply (written_leaf (txt "1") TInt [] []); gaps.
  - apply (written_list _ [txt "2"] (txt " ") []); [gaps|gaps| |reflexivity]. split; [|exact I]. apply (written_leaf (txt "2") TInt [] []); gaps.
Qed.
(** A blank after a string or a list is an element of its own. *)
Theorem c88_more_elements_refuted :
  misread (JList [str "a"; num "2"]) "[""a"" ,2]" (Ok (JList [str "a"; JLeaf (txt " ") TString; num "2"])) /\
  misread (JList [JList [num "1"]]) "[[1] ]" (Ok (JList [JList [num "1"]; JLeaf (txt " ") TString])).
Proof.
  split.
  - split; [decide_wf|]. split; [|split; [run|split; [run|discriminate]]].
    apply (written_list _ [txt """a"" "; txt "2"] [] []); [gaps|gaps| |reflexivity]. split; [|split; [|exact I]].
    + apply (written_leaf (txt "a") TString [] (txt " ")); gaps.
    + apply (written_leaf (txt "2") TInt [] []); gaps.
  - split; [decide_wf|]. split; [|split; [run|split; [run|discriminate]]].
    apply (written_list _ [txt "[1] "] [] []); [gaps|gaps| |reflexivity]. split; [|exact I].
    apply (written_list _ [txt "1"] [] (txt " ")); [gaps|gaps| |reflexivity]. split; [|exact I]. apply (written_leaf (txt "1") TInt [] []); gaps.
Qed.
(** Blanks in a dictionary: before a key, before a list and before the closing brace the result
    is undefined; after a key the colon belongs to the value. *)
Theorem c88_dictionary_refuted :
  misread (JDict [(txt "a", num "1")]) "{ ""a"":1}" UB /\
  misread (JDict [(txt "a", num "1")]) "{""a"" :1}" (Ok (JDict [(txt "a", JLeaf (txt ":1") TString)])) /\
  misread (JDict [(txt "a", JList [num "1"])]) "{""a"": [1]}" UB /\
  misread (JDict [(txt "a", JList [num "1"])]) "{""a"":[1] }" UB.
Proof.
  assert (L1 : written (num "1") (txt "1")) by (apply (written_leaf (txt "1") TInt [] []); gaps).
  assert (L2 : forall w1 w2, gap w1 -> gap w2 -> written (JList [num "1"]) (w1 ++ txt "[1]" ++ w2)).
  { intros w1 w2 G1 G2. apply (written_list _ [txt "1"] w1 w2); [exact G1|exact G2| |reflexivity]. now split. }
  split; [|split; [|split]]; (split; [decide_wf|]); (split; [|split; [run|split; [run|discriminate]]]).
  - apply (written_pair (txt "a") (num "1") [] [] (txt " ") [] _ (txt "1")); [gaps|gaps|gaps|gaps|exact L1|reflexivity].
  - apply (written_pair (txt "a") (num "1") [] [] [] (txt " ") _ (txt "1")); [gaps|gaps|gaps|gaps|exact L1|reflexivity].
  - apply (written_pair (txt "a") (JList [num "1"]) [] [] [] [] _ (txt " [1]")); [gaps|gaps|gaps|gaps|apply (L2 (txt " ") []); gaps|reflexivity].
  - apply (written_pair (txt "a") (JList [num "1"]) [] [] [] [] _ (txt "[1] ")); [gaps|gaps|gaps|gaps|apply (L2 [] (txt " ")); gaps|reflexivity].
Qed.
(** A truth value after a blank: read as false. *)
Theorem c88_true_refuted : exists d, spaced (JList [JLeaf (txt "true") TBool]) (txt "[ true]") /\
  read_as (txt "[ true]") (Ok (JList [d])) /\ as_flag (JLeaf (txt "true") TBool) = Ok true /\ as_flag d = Ok false.
Proof.
  exists (JLeaf (txt " true") TString). split; [|split; [run|split; reflexivity]].
  exists [txt " true"]. split; [reflexivity|]. split; [|exact I]. exists (txt " "), []. split; [gaps|]. split; [gaps|reflexivity].
Qed.
Lemma read_as_fun t r r' : read_as t r -> read_as t r' -> r' = r.
Proof.
  intros (f0 & E) (f1 & E'). specialize (E (f0 + f1) ltac:(lia)). specialize (E' (f0 + f1) ltac:(lia)).
  destruct (read_item (f0 + f1) (s_open t)) as [[[d st]| |]|]; destruct r, r'; try easy; congruence.
Qed.
Theorem c88_blanks_refuted : ~ blanks_do_not_matter.
Proof.
  intros B. destruct c88_nested_refuted as (W & Wr & R1 & R2 & N). apply N. exact (read_as_fun _ _ _ (B _ _ _ W Wr R1) R2).
Qed.

(** *** The hypotheses can be met *)
Definition ex_spaced : json := JDict [(txt "a", JList [num "3"; str "x y"; JList [JLeaf (txt "-1.5e3") TFloat]])].
Example c88_reads_met : wf ex_spaced /\ print ex_spaced <> [] /\ spaced ex_spaced (txt "{""a"":[ 3 ,""x y"",[  -1.5e3]]}") /\
  read_as (txt "{""a"":[ 3 ,""x y"",[  -1.5e3]]}") (Ok (JDict [(txt "a", JList [JLeaf (txt " 3 ") TString; str "x y"; JList [JLeaf (txt "  -1.5e3") TString]])])).
Proof.
  split; [decide_wf|]. split; [discriminate|]. split; [|run].
  exists [txt """a"":[ 3 ,""x y"",[  -1.5e3]]"]. split; [reflexivity|]. split; [|exact I].
  exists (txt "[ 3 ,""x y"",[  -1.5e3]]"). split; [reflexivity|]. exists [txt " 3 "; txt """x y"""; txt "[  -1.5e3]"]. split; [reflexivity|].
  split; [|split; [reflexivity|split; [|exact I]]].
  - exists (txt " "), (txt " "). split; [gaps|]. split; [gaps|reflexivity].
  - exists [txt "  -1.5e3"]. split; [reflexivity|]. split; [|exact I]. exists (txt "  "), []. split; [gaps|]. split; [gaps|reflexivity].
Qed.

Print Assumptions c88_reads.
Print Assumptions c88_numbers.
Print Assumptions c88_leading.
Print Assumptions c88_leading_refuted.
Print Assumptions c88_string_refuted.
Print Assumptions c88_nested_refuted.
Print Assumptions c88_more_elements_refuted.
Print Assumptions c88_dictionary_refuted.
Print Assumptions c88_true_refuted.
Print Assumptions c88_blanks_refuted.
