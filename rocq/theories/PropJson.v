(** C44 (what is printed is read back), C45 (reading terminates). *)
From Verif Require Import Base StreamModel TypeModel PropTypes JsonModel.
From Coq Require Import Ascii String Sorted.
Local Open Scope list_scope.
Local Notation length := List.length.

Section JsonInd.
  Variable P : json -> Prop.
  Hypothesis H0 : P JNull.
  Hypothesis H1 : forall v t, P (JLeaf v t).
  Hypothesis H2 : forall l, Forall P l -> P (JList l).
  Hypothesis H3 : forall m, Forall (fun p => P (snd p)) m -> P (JDict m).
  Fixpoint json_ind' (d : json) : P d :=
    match d with
    | JNull => H0
    | JLeaf v t => H1 v t
    | JList l => H2 l ((fix go l := match l return Forall P l with [] => Forall_nil _ | x :: l => Forall_cons _ (json_ind' x) (go l) end) l)
    | JDict m => H3 m ((fix go m := match m return Forall (fun p => P (snd p)) m with [] => Forall_nil _ | x :: m => Forall_cons _ (json_ind' (snd x)) (go m) end) m)
    end.
End JsonInd.

(** *** Streams: [pre] has been read, [w] follows *)
Definition S_ (pre w : text) : stream ascii := mkS (pre ++ w) (length pre) false false.
Lemma rest_S pre w : rest (S_ pre w) = w.
Proof. unfold rest, S_. cbn [s_pos s_data]. induction pre; [reflexivity|exact IHpre]. Qed.
Lemma S_move u pre w : mkS (pre ++ u ++ w) (length pre + length u) false false = S_ (pre ++ u) w.
Proof. unfold S_. now rewrite app_length, app_assoc. Qed.
Lemma rd1_S pre c w x : rd1 (S_ pre (c :: w)) x = (Some c, S_ (pre ++ [c]) w).
Proof.
  unfold rd1, sread. rewrite rest_S. cbn. f_equal. unfold S_. cbn [s_data]. rewrite app_length. cbn. f_equal. now rewrite <- app_assoc.
Qed.
Lemma back_S pre u w n : n = length u -> back n (S_ (pre ++ u) w) = S_ pre (u ++ w).
Proof.
  intros ->. unfold back, S_. cbn [s_fail s_pos s_data]. rewrite app_length, (proj2 (Nat.leb_le _ _)) by lia. rewrite app_assoc. f_equal. lia.
Qed.
Lemma cut_first d (u w : text) : ~ In d u -> cut Ascii.eqb d (u ++ d :: w) = (u, true).
Proof.
  induction u as [|c u IH]; intros N; cbn [app cut].
  - now rewrite Ascii.eqb_refl.
  - destruct (Ascii.eqb_spec c d) as [->|_]; [exfalso; apply N; now left|]. rewrite IH; [reflexivity|]. intros I; apply N; now right.
Qed.
Lemma cut_none d (u : text) : ~ In d u -> cut Ascii.eqb d u = (u, false).
Proof.
  induction u as [|c u IH]; intros N; cbn [cut]; [reflexivity|].
  destruct (Ascii.eqb_spec c d) as [->|_]; [exfalso; apply N; now left|]. rewrite IH; [reflexivity|]. intros I; apply N; now right.
Qed.
Lemma getline_S d pre u w str : ~ In d u -> sget d (S_ pre (u ++ d :: w)) str = (u, S_ (pre ++ u ++ [d]) w).
Proof.
  intros N. unfold getline. cbn [good s_eof s_fail S_ negb andb]. change (good _) with true. rewrite rest_S, cut_first by exact N. f_equal.
  unfold S_. cbn [s_data s_pos]. rewrite !app_length. cbn [length]. rewrite <- !app_assoc. cbn [app]. f_equal. now rewrite (proj2 (Nat.eqb_neq _ _)) by lia.
Qed.
Lemma getline_end d pre u str : ~ In d u -> sget d (S_ pre u) str = (u, mkS (pre ++ u) (length pre + length u) true (length u =? 0)).
Proof.
  intros N. unfold getline. change (good (S_ pre u)) with true. cbv iota. rewrite rest_S, cut_none by exact N. cbn. now rewrite Nat.add_0_r.
Qed.
(** Looking ahead for a closing bracket that exists changes nothing. *)
Lemma first_split (d : ascii) w : In d w -> exists u v, w = u ++ d :: v /\ ~ In d u.
Proof.
  induction w as [|c w IH]; [easy|]. intros [->|I]; [exists [], w; auto|].
  destruct (ascii_dec c d) as [->|N]; [exists [], w; auto|]. destruct (IH I) as (u & v & -> & Nu). exists (c :: u), v. split; [reflexivity|]. intros [->|J]; auto.
Qed.
Lemma look_ahead d pre w str : In d w -> exists more, sget d (S_ pre w) str = (more, snd (sget d (S_ pre w) str)) /\ back (length more + 1) (snd (sget d (S_ pre w) str)) = S_ pre w.
Proof.
  intros I. destruct (first_split d w I) as (u & v & -> & N). exists u. rewrite getline_S by exact N. split; [reflexivity|]. cbn [snd].
  rewrite back_S by (rewrite app_length; cbn; lia). now rewrite <- app_assoc.
Qed.

(** *** The documents *)
(** A text printed without quotes. *)
Definition plain (v : text) : Prop :=
  ~ In ","%char v /\ ~ In "]"%char v /\ ~ In "}"%char v /\ forall c w, v = c :: w -> c <> quote /\ c <> "["%char /\ c <> "{"%char.
Definition key_lt (a b : text) : Prop := text_cmp a b = Lt.
Definition keys (m : list (text * json)) : list text := map fst m.
(** Strings without double quote; lists and dictionaries not empty; every item has a value; an
    empty text printed without quotes is not the last of several list elements. *)
Fixpoint wf (d : json) : Prop :=
  match d with
  | JNull => False
  | JLeaf v TString => ~ In quote v
  | JLeaf v _ => plain v
  | JList l => l <> [] /\ (length l = 1 \/ print (last l JNull) <> []) /\ (fix all l := match l with [] => True | x :: l => wf x /\ all l end) l
  | JDict m => m <> [] /\ StronglySorted key_lt (keys m) /\ (fix all m := match m with [] => True | (k, x) :: m => ~ In quote k /\ wf x /\ all m end) m
  end.
(** The types of unquoted leaves are inferred again. *)
Fixpoint retype (d : json) : json :=
  match d with
  | JNull => JNull
  | JLeaf v TString => JLeaf v TString
  | JLeaf v _ => JLeaf v (parse_type v)
  | JList l => JList (map retype l)
  | JDict m => JDict (map (fun p => (fst p, retype (snd p))) m)
  end.

Definition closes (tail : text) : Prop :=
  tail = [] \/ exists c t, tail = c :: t /\ (c = ","%char \/ c = "]"%char \/ c = "}"%char).
(** Where the stream stands after an item. *)
Definition lands (pre u tail : text) (st : stream ascii) : Prop :=
  (forall t, tail = ","%char :: t -> st = S_ (pre ++ u ++ [","%char]) t) /\
  (forall c t, tail = c :: t -> c <> ","%char -> st = S_ (pre ++ u) tail).
Definition reads (d : json) : Prop :=
  forall pre tail, closes tail -> print d ++ tail <> [] ->
  exists f0 st, (forall f, f0 <= f -> read_item f (S_ pre (print d ++ tail)) = Some (Ok (retype d, st))) /\ lands pre (print d) tail st.

Lemma upto_close_plain v w : ~ In "]"%char v -> ~ In "}"%char v ->
  upto_close v = (v, false) /\ (forall c, c = "]"%char \/ c = "}"%char -> upto_close (v ++ c :: w) = (v, true)).
Proof.
  intros A B. induction v as [|x v IH].
  - split; [reflexivity|]. intros c [->| ->]; reflexivity.
  - destruct IH as (I1 & I2); [intros I; apply A; now right|intros I; apply B; now right|].
    assert (E : Ascii.eqb x "]" || Ascii.eqb x "}" = false).
    { apply orb_false_intro; apply Ascii.eqb_neq; intros ->; [apply A|apply B]; now left. }
    cbn [upto_close app]. rewrite E, I1. split; [reflexivity|]. intros c Hc. now rewrite I2.
Qed.
Lemma lands_after pre u tail c : closes tail -> c <> ","%char -> lands pre u tail (after_close c (S_ (pre ++ u) tail)).
Proof.
  intros C Nc. split.
  - intros t ->. unfold after_close. cbn [s_eof S_]. change (s_eof (S_ (pre ++ u) (","%char :: t))) with false. cbv iota. rewrite rd1_S. rewrite Ascii.eqb_refl. now rewrite <- app_assoc.
  - intros c' t -> N. unfold after_close. change (s_eof (S_ (pre ++ u) (c' :: t))) with false. cbv iota. rewrite rd1_S.
    rewrite (proj2 (Ascii.eqb_neq _ _) N). rewrite back_S by reflexivity. reflexivity.
Qed.

Lemma reads_string v : ~ In quote v -> reads (JLeaf v TString).
Proof.
  intros N pre tail C _. cbn [print app retype]. rewrite <- app_assoc. cbn [app].
  set (st := after_close quote (S_ (pre ++ quote :: v ++ [quote]) tail)). exists 1, st. split.
  - intros [|f] Hf; [lia|]. cbn [read_item]. rewrite rd1_S. rewrite back_S by reflexivity. cbn [app].
    change (Ascii.eqb quote "[") with false. change (Ascii.eqb quote "{") with false. cbv iota. unfold read_leaf. rewrite rd1_S. rewrite Ascii.eqb_refl.
    rewrite getline_S by exact N. change (s_eof (S_ ((pre ++ [quote]) ++ v ++ [quote]) tail)) with false. cbv iota.
    unfold st, after_close. rewrite <- !app_assoc. cbn [app]. change (s_eof (S_ (pre ++ quote :: v ++ [quote]) tail)) with false. cbv iota.
    destruct (rd1 (S_ (pre ++ quote :: v ++ [quote]) tail) (Some quote)) as [c s]. reflexivity.
  - apply lands_after; [exact C|discriminate].
Qed.
Lemma reads_plain v t : t <> TString -> plain v -> reads (JLeaf v t).
Proof.
  intros Nt (Nc & Ns & Nb & F) pre tail C NE.
  assert (Ep : print (JLeaf v t) = v) by (destruct t; congruence || reflexivity). rewrite Ep in *.
  assert (Er : retype (JLeaf v t) = JLeaf v (parse_type v)) by (destruct t; congruence || reflexivity). rewrite Er.
  assert (First : exists c w, v ++ tail = c :: w /\ c <> quote /\ c <> "["%char /\ c <> "{"%char).
  { destruct v as [|c w]; cbn [app] in *.
    - destruct C as [->|(c & t' & -> & Hc)]; [easy|]. exists c, t'. split; [reflexivity|]. destruct Hc as [->|[->| ->]]; repeat split; discriminate.
    - exists c, (w ++ tail). split; [reflexivity|]. now apply (F c w). }
  destruct First as (c0 & w0 & E0 & F1 & F2 & F3).
  assert (Lf : exists st, read_leaf (S_ pre (v ++ tail)) = Ok (JLeaf v (parse_type v), st) /\ lands pre v tail st).
  { unfold read_leaf. rewrite E0. rewrite rd1_S. rewrite (proj2 (Ascii.eqb_neq _ _) F1). rewrite back_S by reflexivity. cbn [app]. rewrite <- E0. clear c0 w0 E0 F1 F2 F3.
    destruct C as [->|(c & t' & -> & Hc)].
    - rewrite app_nil_r. rewrite getline_end by exact Nc. rewrite (proj1 (upto_close_plain v [] Ns Nb)). eexists. split; [reflexivity|]. split; [intros t'; discriminate|intros c t'; discriminate].
    - destruct (ascii_dec c ",") as [->|Ncc].
      + rewrite getline_S by exact Nc. rewrite (proj1 (upto_close_plain v [] Ns Nb)). eexists. split; [reflexivity|]. split.
        * intros t'' E. injection E as <-. reflexivity.
        * intros c t'' E N. injection E as <- _. congruence.
      + assert (Hc' : c = "]"%char \/ c = "}"%char) by tauto. clear Hc.
        assert (Goal' : exists st, (let '(v0, st0) := sget ","%char (S_ pre (v ++ c :: t')) [] in
            let '(v', found) := upto_close v0 in
            let st1 := if found then let st2 := if s_eof st0 then st0 else back 1 st0 in back (length v0 - length v') st2 else st0 in
            Ok (JLeaf v' (parse_type v'), st1)) = Ok (JLeaf v (parse_type v), st) /\ st = S_ (pre ++ v) (c :: t')).
        { destruct (in_dec ascii_dec ","%char (c :: t')) as [I|I].
          - destruct (first_split _ _ I) as (a & b & E & Na). destruct a as [|a0 a]; [injection E as E _; congruence|]. injection E as <- ->.
            replace (v ++ c :: a ++ ","%char :: b) with ((v ++ c :: a) ++ ","%char :: b) by (now rewrite <- app_assoc).
            rewrite getline_S by (rewrite in_app_iff; tauto). rewrite (proj2 (upto_close_plain v a Ns Nb) c Hc').
            eexists. split; [reflexivity|]. cbn [s_eof S_]. change (s_eof (S_ (pre ++ (v ++ c :: a) ++ [","%char]) b)) with false. cbv iota.
            replace (pre ++ (v ++ c :: a) ++ [","%char]) with ((pre ++ v ++ c :: a) ++ [","%char]) by (rewrite <- !app_assoc; reflexivity).
            rewrite back_S by reflexivity. replace (pre ++ v ++ c :: a) with ((pre ++ v) ++ c :: a) by now rewrite <- app_assoc.
            rewrite back_S; [reflexivity|]. rewrite app_length. lia.
          - rewrite getline_end by (rewrite in_app_iff; tauto). rewrite (proj2 (upto_close_plain v t' Ns Nb) c Hc').
            eexists. split; [reflexivity|]. cbn [s_eof]. unfold back. cbn [s_fail s_pos s_data].
            rewrite app_length. cbn [length]. rewrite (proj2 (Nat.eqb_neq _ _)) by lia. rewrite (proj2 (Nat.leb_le _ _)) by lia.
            unfold S_. rewrite <- app_assoc. f_equal. rewrite app_length. lia. }
        destruct Goal' as (st & E & ->). exists (S_ (pre ++ v) (c :: t')). split; [exact E|]. split.
        * intros t'' E'. injection E' as -> _. congruence.
        * intros c' t'' E' _. reflexivity. }
  destruct Lf as (st & El & Ls). exists 1, st. split; [|exact Ls]. intros [|f] Hf; [lia|]. cbn [read_item]. rewrite E0 in *. rewrite rd1_S. rewrite back_S by reflexivity. cbn [app].
  rewrite (proj2 (Ascii.eqb_neq _ _) F2), (proj2 (Ascii.eqb_neq _ _) F3). now rewrite El.
Qed.

(** First character of what an item prints *)
Lemma print_first d c w : wf d -> print d = c :: w -> c <> "]"%char.
Proof.
  intros W E. destruct d as [|v t|l|m]; cbn [print] in E; try discriminate.
  - destruct t; cbn [wf] in W; try (destruct W as (_ & W & _); rewrite E in W; intros ->; apply W; now left).
    injection E as <- _. discriminate.
  - injection E as <- _. discriminate.
  - injection E as <- _. discriminate.
Qed.
Lemma commas_cons x y l : commas (x :: y :: l) = x ++ ","%char :: commas (y :: l).
Proof. reflexivity. Qed.
Lemma last_map_cons {A} (x : A) l d : l <> [] -> last (x :: l) d = last l d.
Proof. now destruct l. Qed.

Lemma read_list_ok l : l <> [] -> Forall reads l -> Forall wf l -> (length l = 1 \/ print (last l JNull) <> []) ->
  forall pre tail acc more c, closes tail ->
  exists f0 st, (forall f, f0 <= f -> read_list f (S_ pre (commas (map print l) ++ "]"%char :: tail)) (Some c) acc more = Some (Ok (JList (acc ++ map retype l), st))) /\
    lands pre (commas (map print l) ++ ["]"%char]) tail st.
Proof.
  induction l as [|d l IH]; [easy|]. intros _ R W La pre tail acc more c C.
  inversion R as [|? ? Rd Rl]; subst. inversion W as [|? ? Wd Wl]; subst.
  assert (In1 : In "]"%char (commas (map print (d :: l)) ++ "]"%char :: tail)) by (rewrite in_app_iff; right; now left).
  destruct l as [|d' l].
  - cbn [map commas] in *. destruct (Rd pre ("]"%char :: tail)) as (f0 & st & E & (_ & L2)); [right; do 2 eexists; split; [reflexivity|tauto]|now destruct (print d)|].
    specialize (L2 "]"%char tail eq_refl ltac:(discriminate)). subst st.
    exists (Datatypes.S f0), (after_close "]" (S_ (pre ++ print d ++ ["]"%char]) tail)). split; [|apply lands_after; [exact C|discriminate]].
    intros [|f] Hf; [lia|]. cbn [read_list]. destruct (look_ahead "]"%char pre _ more In1) as (mm & Eg & Eb). rewrite Eg, Eb.
    rewrite E by lia. rewrite rd1_S. rewrite Ascii.eqb_refl. now rewrite <- app_assoc.
  - change (map print (d :: d' :: l)) with (print d :: print d' :: map print l) in *. rewrite commas_cons in *.
    set (rest' := commas (print d' :: map print l)) in *.
    replace ((print d ++ ","%char :: rest') ++ "]"%char :: tail) with (print d ++ ","%char :: rest' ++ "]"%char :: tail) in * by (rewrite <- app_assoc; reflexivity).
    destruct (Rd pre (","%char :: rest' ++ "]"%char :: tail)) as (f0 & st & E & (L1 & _)); [right; do 2 eexists; split; [reflexivity|tauto]|now destruct (print d)|].
    specialize (L1 _ eq_refl). subst st.
    assert (La' : length (d' :: l) = 1 \/ print (last (d' :: l) JNull) <> []).
    { destruct La as [La|La]; [cbn in La; lia|]. right. exact La. }
    destruct (IH ltac:(discriminate) Rl Wl La' (pre ++ print d ++ [","%char]) tail (acc ++ [retype d]) (fst (sget "]"%char (S_ pre (print d ++ ","%char :: rest' ++ "]"%char :: tail)) more))
        (hd "]"%char (rest' ++ "]"%char :: tail)) C) as (f1 & st & E1 & L). change (map print (d' :: l)) with (print d' :: map print l) in E1, L. fold rest' in E1, L.
    exists (Datatypes.S (f0 + f1)), st. split.
    + intros [|f] Hf; [lia|]. cbn [read_list]. destruct (look_ahead "]"%char pre _ more In1) as (mm & Eg & Eb). rewrite Eg in E1 |- *. cbn [fst] in E1. rewrite Eb.
      rewrite E by lia.
      destruct (rest' ++ "]"%char :: tail) as [|x w] eqn:Ew; [now destruct rest'|]. rewrite rd1_S.
      assert (Nx : x <> "]"%char).
      { destruct (print d') as [|y w'] eqn:Ed'.
        - destruct l as [|d'' l].
          + exfalso. destruct La as [La|La]; [cbn in La; lia|]. apply La. exact Ed'.
          + unfold rest' in Ew. cbn [map] in Ew. rewrite commas_cons in Ew. cbn [app] in Ew. injection Ew as <- _. discriminate.
        - inversion Wl as [|? ? Wd' _]; subst. assert (x = y) by (destruct l; unfold rest' in Ew; cbn [map] in Ew; rewrite ?commas_cons in Ew; cbn [commas app] in Ew; now injection Ew as ->).
          subst x. now apply (print_first d' y w'). }
      rewrite (proj2 (Ascii.eqb_neq _ _) Nx). rewrite back_S by reflexivity. cbn [app].
      cbn [hd] in E1. rewrite E1 by lia. rewrite <- app_assoc. reflexivity.
    + destruct L as (L1 & L2). split.
      * intros t Et. rewrite (L1 t Et). f_equal. rewrite <- !app_assoc. cbn [app]. reflexivity.
      * intros c' t Et Nc'. rewrite (L2 c' t Et Nc'). f_equal. rewrite <- !app_assoc. cbn [app]. reflexivity.
Qed.

(** *** Dictionaries *)
Lemma text_cmp_opp a : forall b, text_cmp b a = CompOpp (text_cmp a b).
Proof.
  induction a as [|x a IH]; intros [|y b]; cbn [text_cmp CompOpp]; try reflexivity.
  rewrite (N.compare_antisym (N_of_ascii x)). destruct (N.compare (N_of_ascii x) (N_of_ascii y)); cbn [CompOpp]; auto.
Qed.
Lemma map_set_last k x m : Forall (fun p => key_lt (fst p) k) m -> map_set k x m = m ++ [(k, x)].
Proof.
  induction m as [|[k' x'] m IH]; intros F; [reflexivity|]. inversion F as [|? ? Fk Fm]; subst. cbn [map_set app fst] in *.
  unfold key_lt in Fk. rewrite text_cmp_opp, Fk. cbn [CompOpp]. now rewrite IH.
Qed.
Definition entry (p : text * json) : text := quote :: fst p ++ quote :: ":"%char :: print (snd p).
Lemma read_dict_ok m : m <> [] -> Forall (fun p => reads (snd p)) m -> Forall (fun p => ~ In quote (fst p)) m ->
  forall pre tail acc more c, closes tail -> StronglySorted key_lt (keys (acc ++ m)) ->
  exists f0 st, (forall f, f0 <= f -> read_dict f (S_ pre (commas (map entry m) ++ "}"%char :: tail)) (Some c) acc more = Some (Ok (JDict (acc ++ map (fun p => (fst p, retype (snd p))) m), st))) /\
    lands pre (commas (map entry m) ++ ["}"%char]) tail st.
Proof.
  induction m as [|[k d] m IH]; [easy|]. intros _ R Q pre tail acc more c C So.
  inversion R as [|? ? Rd Rl]; subst. inversion Q as [|? ? Qd Ql]; subst. cbn [fst snd] in Rd, Qd.
  assert (In1 : In "}"%char (commas (map entry ((k, d) :: m)) ++ "}"%char :: tail)) by (rewrite in_app_iff; right; now left).
  assert (Ms : map_set k (retype d) acc = acc ++ [(k, retype d)]).
  { apply map_set_last. clear - So. unfold keys in So. rewrite map_app in So. induction acc as [|[k' x'] acc IHa]; [constructor|]. cbn [map app fst] in So. inversion So as [|? ? So2 Fa]; subst.
    constructor; [|now apply IHa]. cbn [fst]. rewrite Forall_app in Fa. destruct Fa as (_ & Fa). inversion Fa; subst. assumption. }
  assert (Step : forall pre2 w f, In "}"%char (entry (k, d) ++ w) -> forall cc mm, exists m',
      read_dict (Datatypes.S f) (S_ pre2 (entry (k, d) ++ w)) (Some cc) acc mm =
      match read_item f (S_ (pre2 ++ quote :: k ++ [quote; ":"%char]) (print d ++ w)) with
      | Some (Ok (ji, st)) =>
          let m0 := map_set k ji acc in
          let '(c0, st0) := rd1 st (Some ":"%char) in
          match c0 with None => Some UB | Some c1 => if Ascii.eqb c1 "}" then Some (Ok (JDict m0, after_close c1 st0)) else read_dict f (back 1 st0) (Some c1) m0 m' end
      | r => r end).
  { intros pre2 w f I cc mm. destruct (look_ahead "}"%char pre2 _ mm I) as (mm' & Eg & Eb). exists mm'. cbn [read_dict]. rewrite Eg, Eb.
    unfold entry. cbn [fst snd app]. rewrite <- app_assoc. cbn [app]. rewrite rd1_S. rewrite getline_S by exact Qd. rewrite rd1_S.
    replace (((pre2 ++ [quote]) ++ k ++ [quote]) ++ [":"%char]) with (pre2 ++ quote :: k ++ [quote; ":"%char]) by (rewrite <- !app_assoc; reflexivity).
    reflexivity. }
  destruct m as [|p' m].
  - cbn [map commas] in *. set (pre' := pre ++ quote :: k ++ [quote; ":"%char]).
    destruct (Rd pre' ("}"%char :: tail)) as (f0 & st & E & (_ & L2)); [right; do 2 eexists; split; [reflexivity|tauto]|now destruct (print d)|].
    specialize (L2 "}"%char tail eq_refl ltac:(discriminate)). subst st.
    exists (Datatypes.S f0), (after_close "}" (S_ (pre ++ entry (k, d) ++ ["}"%char]) tail)). split; [|apply lands_after; [exact C|discriminate]].
    intros [|f] Hf; [lia|]. destruct (Step pre ("}"%char :: tail) f In1 c more) as (m' & ->). fold pre'. rewrite E by lia. cbv zeta. rewrite rd1_S. rewrite Ascii.eqb_refl. rewrite Ms. cbn [fst snd].
    do 4 f_equal. unfold pre', entry. cbn [fst snd]. f_equal. rewrite <- !app_assoc. cbn [app]. rewrite <- !app_assoc. reflexivity.
  - change (map entry ((k, d) :: p' :: m)) with (entry (k, d) :: entry p' :: map entry m) in *. rewrite commas_cons in *.
    set (rest' := commas (entry p' :: map entry m)) in *.
    replace ((entry (k, d) ++ ","%char :: rest') ++ "}"%char :: tail) with (entry (k, d) ++ ","%char :: rest' ++ "}"%char :: tail) in * by (rewrite <- app_assoc; reflexivity).
    set (pre' := pre ++ quote :: k ++ [quote; ":"%char]).
    destruct (Rd pre' (","%char :: rest' ++ "}"%char :: tail)) as (f0 & st & E & (L1 & _)); [right; do 2 eexists; split; [reflexivity|tauto]|now destruct (print d)|].
    specialize (L1 _ eq_refl). subst st.
    assert (Ef : exists w, rest' ++ "}"%char :: tail = quote :: w).
    { unfold rest'. destruct m as [|p2 m]; cbn [map]; [cbn [commas]; eexists; reflexivity|]. rewrite commas_cons. eexists. reflexivity. }
    destruct Ef as (w & Ew).
    destruct (Step pre (","%char :: rest' ++ "}"%char :: tail) 0 In1 c more) as (m' & _). clear m'.
    assert (Mo : exists m', forall f, read_dict (Datatypes.S f) (S_ pre (entry (k, d) ++ ","%char :: rest' ++ "}"%char :: tail)) (Some c) acc more =
      match read_item f (S_ pre' (print d ++ ","%char :: rest' ++ "}"%char :: tail)) with
      | Some (Ok (ji, st)) =>
          let m0 := map_set k ji acc in
          let '(c0, st0) := rd1 st (Some ":"%char) in
          match c0 with None => Some UB | Some c1 => if Ascii.eqb c1 "}" then Some (Ok (JDict m0, after_close c1 st0)) else read_dict f (back 1 st0) (Some c1) m0 m' end
      | r => r end).
    { destruct (look_ahead "}"%char pre _ more In1) as (mm' & Eg & Eb). exists mm'. intros f. cbn [read_dict]. rewrite Eg, Eb.
      unfold entry. cbn [fst snd app]. rewrite <- app_assoc. cbn [app]. rewrite rd1_S. rewrite getline_S by exact Qd. rewrite rd1_S.
      replace (((pre ++ [quote]) ++ k ++ [quote]) ++ [":"%char]) with pre' by (unfold pre'; rewrite <- !app_assoc; reflexivity).
      reflexivity. }
    destruct Mo as (m' & Mo). clear Step.
    destruct (IH ltac:(discriminate) Rl Ql (pre' ++ print d ++ [","%char]) tail (acc ++ [(k, retype d)]) m' quote C) as (f1 & st & E1 & L).
    { unfold keys in *. rewrite !map_app in *. cbn [map fst] in *. rewrite <- app_assoc. exact So. }
    change (map entry (p' :: m)) with (entry p' :: map entry m) in E1, L. fold rest' in E1, L.
    exists (Datatypes.S (f0 + f1)), st. split.
    + intros [|f] Hf; [lia|]. rewrite Mo. rewrite E by lia. cbv zeta. rewrite Ew. rewrite rd1_S. change (Ascii.eqb quote "}") with false. cbv iota.
      rewrite back_S by reflexivity. rewrite Ms. cbn [app]. rewrite <- Ew. rewrite E1 by lia. rewrite <- app_assoc. reflexivity.
    + assert (Ep : forall z, (pre' ++ print d ++ [","%char]) ++ z = pre ++ (entry (k, d) ++ ","%char :: z)).
      { intros z. unfold pre', entry. cbn [fst snd]. rewrite <- !app_assoc. cbn [app]. rewrite <- !app_assoc. reflexivity. }
      destruct L as (L1 & L2). split.
      * intros t Et. rewrite (L1 t Et). f_equal. rewrite Ep. rewrite <- !app_assoc. cbn [app]. reflexivity.
      * intros c' t Et Nc'. rewrite (L2 c' t Et Nc'). f_equal. rewrite Ep. rewrite <- !app_assoc. cbn [app]. reflexivity.
Qed.

Lemma wf_list_all l : (fix all l := match l with [] => True | x :: l => wf x /\ all l end) l -> Forall wf l.
Proof. induction l as [|x l IH]; [constructor|]. intros (A & B). constructor; auto. Qed.
Lemma wf_dict_all m : (fix all (m : list (text * json)) := match m with [] => True | (k, x) :: m => ~ In quote k /\ wf x /\ all m end) m ->
  Forall (fun p => ~ In quote (fst p)) m /\ Forall (fun p => wf (snd p)) m.
Proof. induction m as [|[k x] m IH]; [split; constructor|]. intros (A & B & D). destruct (IH D). split; constructor; auto. Qed.
Lemma reads_all d : wf d -> reads d.
Proof.
  induction d as [|v t|l IH|m IH] using json_ind'; intros W.
  - destruct W.
  - destruct t; try (apply reads_plain; [discriminate|exact W]). apply reads_string. exact W.
  - cbn [wf] in W. destruct W as (NE & La & Al). apply wf_list_all in Al.
    assert (R : Forall reads l). { apply Forall_forall. intros x Hx. rewrite Forall_forall in IH, Al. auto. }
    intros pre tail C _. cbn [print app]. rewrite <- app_assoc. cbn [app].
    destruct (read_list_ok l NE R Al La (pre ++ ["["%char]) tail [] [] "["%char C) as (f0 & st & E & L). exists (Datatypes.S f0), st. split.
    + intros [|f] Hf; [lia|]. cbn [read_item]. rewrite rd1_S. rewrite back_S by reflexivity. cbn [app]. rewrite Ascii.eqb_refl. rewrite rd1_S. now rewrite E by lia.
    + destruct L as (L1 & L2). split.
      * intros t Et. rewrite (L1 t Et). f_equal. rewrite <- !app_assoc. cbn [app]. rewrite <- ?app_assoc. reflexivity.
      * intros c t Et Nc. rewrite (L2 c t Et Nc). f_equal. rewrite <- !app_assoc. cbn [app]. rewrite <- ?app_assoc. reflexivity.
  - cbn [wf] in W. destruct W as (NE & So & Al). apply wf_dict_all in Al as (Q & Al).
    assert (R : Forall (fun p => reads (snd p)) m). { apply Forall_forall. intros x Hx. rewrite Forall_forall in IH, Al. auto. }
    intros pre tail C _. cbn [print app]. change (fun p : text * json => quote :: fst p ++ quote :: ":"%char :: print (snd p)) with entry. rewrite <- app_assoc. cbn [app].
    destruct (read_dict_ok m NE R Q (pre ++ ["{"%char]) tail [] [] "{"%char C So) as (f0 & st & E & L). exists (Datatypes.S f0), st. split.
    + intros [|f] Hf; [lia|]. cbn [read_item]. rewrite rd1_S. rewrite back_S by reflexivity. cbn [app]. change (Ascii.eqb "{" "[") with false. rewrite Ascii.eqb_refl. cbv iota. rewrite rd1_S. now rewrite E by lia.
    + destruct L as (L1 & L2). split.
      * intros t Et. rewrite (L1 t Et). f_equal. rewrite <- !app_assoc. cbn [app]. rewrite <- ?app_assoc. reflexivity.
      * intros c t Et Nc. rewrite (L2 c t Et Nc). f_equal. rewrite <- !app_assoc. cbn [app]. rewrite <- ?app_assoc. reflexivity.
Qed.

(** *** C44 *)
(** Printing and reading a document of the class, of any depth. *)
Theorem c44_roundtrip_partial : forall d, wf d -> print d <> [] ->
  exists f0 st, forall f, f0 <= f -> read_item f (s_open (print d)) = Some (Ok (retype d, st)).
Proof.
  intros d W NE. destruct (reads_all d W [] []) as (f0 & st & E & _); [now left|now rewrite app_nil_r|].
  rewrite app_nil_r in E. exists f0, st. exact E.
Qed.
Lemma text_eqb_refl v : text_eqb v v = true.
Proof. unfold text_eqb. now destruct (list_eq_dec ascii_dec v v). Qed.
Lemma text_eqb_eq a b : text_eqb a b = true <-> a = b.
Proof. unfold text_eqb. destruct (list_eq_dec ascii_dec a b); split; congruence. Qed.
Lemma text_cmp_refl a : text_cmp a a = Eq.
Proof. induction a as [|x a IH]; [reflexivity|]. cbn [text_cmp]. now rewrite N.compare_refl. Qed.
Lemma text_cmp_eq a : forall b, text_cmp a b = Eq -> a = b.
Proof.
  induction a as [|x a IH]; intros [|y b] E; try discriminate; [reflexivity|]. cbn [text_cmp] in E.
  destruct (N.compare_spec (N_of_ascii x) (N_of_ascii y)) as [Q|Q|Q]; try discriminate. rewrite (IH b E). f_equal.
  rewrite <- (ascii_N_embedding x), <- (ascii_N_embedding y). congruence.
Qed.
Lemma text_cmp_trans a : forall b c, key_lt a b -> key_lt b c -> key_lt a c.
Proof.
  unfold key_lt. induction a as [|x a IH]; intros [|y b] [|z c] H1 H2; try discriminate; [reflexivity|]. cbn [text_cmp] in *.
  destruct (N.compare_spec (N_of_ascii x) (N_of_ascii y)) as [Q|Q|Q], (N.compare_spec (N_of_ascii y) (N_of_ascii z)) as [Q'|Q'|Q']; try discriminate.
  - rewrite Q, Q', N.compare_refl. eapply IH; eassumption.
  - rewrite Q. now rewrite (proj2 (N.compare_lt_iff _ _) Q').
  - rewrite <- Q'. now rewrite (proj2 (N.compare_lt_iff _ _) Q).
  - now rewrite (proj2 (N.compare_lt_iff _ _) (N.lt_trans _ _ _ Q Q')).
Qed.
(** The document read is equal (operator==) to the one printed. *)
Theorem c44_equal : forall d, wf d -> json_eq d (retype d) = Ok true.
Proof.
  induction d as [|v t|l IH|m IH] using json_ind'; intros W.
  - destruct W.
  - destruct t; cbn [retype json_eq]; now rewrite text_eqb_refl.
  - cbn [wf] in W. destruct W as (_ & _ & Al). apply wf_list_all in Al. cbn [retype json_eq]. rewrite map_length, Nat.eqb_refl. cbn [negb].
    induction l as [|x l IHl]; [reflexivity|]. inversion IH as [|? ? Ix Il]; subst. inversion Al as [|? ? Ax A2]; subst. cbn [map]. rewrite (Ix Ax). cbn [bind]. now apply IHl.
  - cbn [wf] in W. destruct W as (_ & So & Al). apply wf_dict_all in Al as (_ & Al). cbn [retype json_eq]. rewrite map_length, Nat.eqb_refl. cbn [negb].
    set (m' := map (fun p => (fst p, retype (snd p))) m).
    assert (K : forallb (fun p => existsb (fun q => text_eqb (fst q) (fst p)) m) m' = true).
    { apply forallb_forall. intros p Hp. apply existsb_exists. unfold m' in Hp. apply in_map_iff in Hp as (q & <- & Hq). exists q. split; [exact Hq|]. apply text_eqb_refl. }
    rewrite K. cbn [negb].
    assert (Fd : forall k x, In (k, x) m -> map_find k m' = Some (retype x)).
    { unfold m'. clear - So. induction m as [|[k x] m IHm]; intros k' x' I; [easy|]. cbn [keys map fst] in So. inversion So as [|? ? So2 Fk]; subst. cbn [map map_find fst snd].
      destruct (text_eqb k' k) eqn:E.
      - apply text_eqb_eq in E. subst k'. destruct I as [I|I]; [now injection I as ->|]. exfalso.
        rewrite Forall_forall in Fk. specialize (Fk k (in_map fst m (k, x') I)). unfold key_lt in Fk. rewrite text_cmp_refl in Fk. discriminate.
      - destruct I as [I|I]; [injection I as -> ->; now rewrite text_eqb_refl in E|]. now apply IHm. }
    clearbody m'. clear K So. induction m as [|[k x] m IHm]; [reflexivity|]. inversion IH as [|? ? Ix Il]; subst. inversion Al as [|? ? Ax A2]; subst. cbn [snd] in *.
    rewrite (Fd k x) by now left. rewrite (Ix Ax). cbn [bind]. apply IHm; [exact Il|exact A2|]. intros k' x' I. apply Fd. now right.
Qed.
(** Documents whose unquoted leaves carry the inferred type (as built by the constructors):
    the document read is the same one, types included. *)
Fixpoint typed (d : json) : Prop :=
  match d with
  | JNull => True
  | JLeaf v t => t = TString \/ t = parse_type v
  | JList l => (fix all l := match l with [] => True | x :: l => typed x /\ all l end) l
  | JDict m => (fix all (m : list (text * json)) := match m with [] => True | (_, x) :: m => typed x /\ all m end) m
  end.
Theorem c44_same : forall d, typed d -> retype d = d.
Proof.
  induction d as [|v t|l IH|m IH] using json_ind'; intros T.
  - reflexivity.
  - cbn [typed] in T. destruct t; cbn [retype]; try reflexivity; destruct T as [T|T]; try discriminate; now rewrite <- T.
  - cbn [typed] in T. cbn [retype]. f_equal. induction l as [|x l IHl]; [reflexivity|]. inversion IH; subst. destruct T as (T1 & T2). cbn [map]. f_equal; auto.
  - cbn [typed] in T. cbn [retype]. f_equal. induction m as [|[k x] m IHm]; [reflexivity|]. inversion IH; subst. destruct T as (T1 & T2). cbn [map fst snd] in *. f_equal; [f_equal; auto|auto].
Qed.
(** Unquoted texts of leaves *)
Definition okc (c : ascii) : Prop := ~ In c (txt ",]}[{") /\ c <> quote.
Lemma okc_plain v : Forall okc v -> plain v.
Proof.
  intros F. rewrite Forall_forall in F. assert (N : forall c, In c (txt ",]}[{") -> ~ In c v) by (intros c I J; apply (proj1 (F c J)); exact I).
  split; [apply N; cbn; auto|]. split; [apply N; cbn; auto|]. split; [apply N; cbn; auto|]. intros c w ->. destruct (F c (or_introl eq_refl)) as (A & B).
  split; [exact B|]. split; intros ->; apply A; cbn; auto 6.
Qed.
Lemma okc_digits v : all_digits v -> Forall okc v.
Proof. intros F. eapply Forall_impl; [|exact F]. intros c I. unfold is_digit in I. cbn in I. unfold okc. cbn [txt list_ascii_of_string In]. repeat (destruct I as [<-|I]; [split; [intuition discriminate|discriminate]|]). easy. Qed.
Lemma okc_list v : forallb (fun c => negb (existsb (Ascii.eqb c) (quote :: txt ",]}[{"))) v = true -> Forall okc v.
Proof.
  intros H. rewrite forallb_forall in H. apply Forall_forall. intros c I. specialize (H c I). apply negb_true_iff in H.
  split; intros J; rewrite <- not_true_iff_false in H; apply H; apply existsb_exists; exists c; (split; [|apply Ascii.eqb_refl]); [now right|subst; now left].
Qed.
Lemma okc_sign s : is_sign s -> Forall okc s.
Proof. intros [->|[->| ->]]; apply okc_list; reflexivity. Qed.
Lemma unquoted_plain v : parse_type v <> TString -> plain v.
Proof.
  intros N. apply okc_plain. destruct v as [|c0 v0]; [constructor|].
  assert (Q : bool_text (c0 :: v0) \/ float_text (c0 :: v0)).
  { destruct (parse_type (c0 :: v0)) eqn:E.
    - now apply c46_none in E.
    - exfalso. revert E. unfold parse_type. repeat match goal with |- context [if ?b then _ else _] => destruct b end; discriminate.
    - right. now apply c46_float in E.
    - right. apply c46_int_is_float_text. now apply c46_int in E.
    - left. now apply c46_bool in E.
    - congruence.
    - exfalso. revert E. unfold parse_type. repeat match goal with |- context [if ?b then _ else _] => destruct b end; discriminate. }
  destruct Q as [[E|E]|(sg & ip & dot & fp & ex & E & A & B & D & F & _ & G)]; rewrite E.
  - apply okc_list. reflexivity.
  - apply okc_list. reflexivity.
  - rewrite !Forall_app. split; [now apply okc_sign|]. split; [now apply okc_digits|]. split; [destruct D as [->| ->]; apply okc_list; reflexivity|]. split; [now apply okc_digits|].
    destruct G as [->|(e & es & ds & -> & He & Hs & Hd & _)]; [constructor|]. constructor; [|rewrite Forall_app; split; [now apply okc_sign|now apply okc_digits]].
    destruct He as [->| ->]; (split; [cbn; intuition discriminate|discriminate]).
Qed.
(** What the constructors and the map make belongs to the class. *)
Theorem c44_leaves : forall v n b,
  (~ In quote v -> wf (leaf_text v) /\ typed (leaf_text v)) /\
  (wf (leaf_int n) /\ typed (leaf_int n)) /\ (wf (leaf_bool b) /\ typed (leaf_bool b)).
Proof.
  intros v n b. split; [|split].
  - intros N. unfold leaf_text. split; [|now right]. cbn [wf]. destruct (parse_type v) eqn:E; try exact N; apply unquoted_plain; rewrite E; discriminate.
  - split; [|right; symmetry; apply c46_print_int]. apply unquoted_plain. rewrite c46_print_int. discriminate.
  - split; [|right; symmetry; apply c46_print_bool]. apply unquoted_plain. rewrite (proj1 (c46_print_bool b)). discriminate.
Qed.
Lemma keys_map_set k x m a : In a (keys (map_set k x m)) -> a = k \/ In a (keys m).
Proof.
  induction m as [|[k' x'] m IH]; cbn [map_set].
  - intros [<-|[]]. now left.
  - destruct (text_cmp k k') eqn:E; cbn [keys map fst In]; intros I.
    + destruct I as [<-|I]; auto.
    + destruct I as [<-|[<-|I]]; auto.
    + destruct I as [<-|I]; [auto|]. destruct (IH I); auto.
Qed.
Theorem c44_keys_sorted : forall k x m, StronglySorted key_lt (keys m) -> StronglySorted key_lt (keys (map_set k x m)).
Proof.
  intros k x m. induction m as [|[k' x'] m IH]; intros So; [constructor; constructor|]. cbn [keys map fst] in So. inversion So as [|? ? So2 Fk]; subst.
  cbn [map_set]. destruct (text_cmp k k') eqn:E; cbn [keys map fst].
  - apply text_cmp_eq in E. subst k'. now constructor.
  - constructor; [exact So|]. constructor; [exact E|]. eapply Forall_impl; [|exact Fk]. intros a Ha. now apply (text_cmp_trans k k' a).
  - constructor; [now apply IH|]. apply Forall_forall. intros a Ha. apply keys_map_set in Ha as [->|Ha].
    + unfold key_lt. rewrite text_cmp_opp, E. reflexivity.
    + rewrite Forall_forall in Fk. auto.
Qed.
(** An empty text is printed without quotes: as the last of several elements it is lost. *)
Theorem c44_empty_string_refuted : exists d f0 st,
  d = JList [leaf_text (txt "a"); leaf_text []] /\
  (forall f, f0 <= f -> read_item f (s_open (print d)) = Some (Ok (JList [leaf_text (txt "a")], st))) /\
  json_eq d (JList [leaf_text (txt "a")]) = Ok false.
Proof.
  eexists _, 10, _. split; [reflexivity|]. split; [|reflexivity]. intros f Hf. do 10 (destruct f as [|f]; [lia|]). vm_compute. reflexivity.
Qed.
(** Empty list: comes back with one element. Empty dictionary: undefined. *)
Theorem c44_empty_containers_refuted :
  (exists st, forall f, 10 <= f -> read_item f (s_open (print (JList []))) = Some (Ok (JList [leaf_text []], st))) /\
  (forall f, 10 <= f -> read_item f (s_open (print (JDict []))) = Some UB).
Proof.
  split; [eexists|]; intros f Hf; do 10 (destruct f as [|f]; [lia|]); vm_compute; reflexivity.
Qed.

(** *** C45 *)
(** A list without closing bracket: reading never ends (each look-ahead goes back one
    character too far and the same list is read again inside). *)
Theorem c45_truncated_refuted : forall w n, w <> [] -> ~ In "]"%char w -> read_item n (s_open ("["%char :: w)) = None.
Proof.
  intros w n NE N. change (s_open ("["%char :: w)) with (S_ [] ("["%char :: w)).
  induction n as [n IH] using lt_wf_ind. destruct n as [|[|n]]; [reflexivity| |].
  - cbn [read_item]. rewrite rd1_S. cbn [app]. change (back 1 (S_ ["["%char] w)) with (back 1 (S_ ([] ++ ["["%char]) w)). rewrite back_S by reflexivity. cbn [app]. rewrite Ascii.eqb_refl. now rewrite rd1_S.
  - cbn [read_item]. rewrite rd1_S. cbn [app]. change (back 1 (S_ ["["%char] w)) with (back 1 (S_ ([] ++ ["["%char]) w)). rewrite back_S by reflexivity. cbn [app]. rewrite Ascii.eqb_refl. rewrite rd1_S.
    cbn [read_list]. rewrite getline_end by exact N.
    assert (Eb : back (length w + 1) (mkS ((nil ++ ["["%char]) ++ w) (length (nil ++ ["["%char]) + length w) true (length w =? 0)) = S_ [] ("["%char :: w)).
    { unfold back, S_. cbn [s_fail s_pos s_data app length]. assert (length w <> 0) by (now destruct w). rewrite (proj2 (Nat.eqb_neq _ _)) by assumption. rewrite (proj2 (Nat.leb_le _ _)) by lia. f_equal. lia. }
    rewrite Eb. rewrite IH by lia. reflexivity.
Qed.
(** A brace of the wrong kind in a list: the loop takes empty elements for ever. *)
Theorem c45_stuck_refuted : forall n, read_item n (s_open (txt "[}]")) = None.
Proof.
  assert (Q : forall n c acc more, read_list n (S_ (txt "[") (txt "}]")) c acc more = None).
  { induction n as [|n IH]; intros c acc more; [reflexivity|]. cbn [read_list].
    change (sget "]"%char (S_ (txt "[") (txt "}]")) more) with (txt "}", S_ (txt "[}]") []).
    change (back (length (txt "}") + 1) (S_ (txt "[}]") [])) with (S_ (txt "[") (txt "}]")).
    destruct n as [|n]; [reflexivity|].
    change (read_item (S n) (S_ (txt "[") (txt "}]"))) with (Some (Ok (JLeaf [] TNone, S_ (txt "[") (txt "}]")))). cbv iota beta.
    change (rd1 (S_ (txt "[") (txt "}]")) c) with (Some "}"%char, S_ (txt "[}") (txt "]")). cbv iota beta. change (Ascii.eqb "}" "]") with false. cbv iota.
    change (back 1 (S_ (txt "[}") (txt "]"))) with (S_ (txt "[") (txt "}]")). apply IH. }
  intros [|n]; [reflexivity|]. cbn [read_item]. change (rd1 (s_open (txt "[}]")) None) with (Some "["%char, S_ (txt "[") (txt "}]")). cbv iota beta.
  change (back 1 (S_ (txt "[") (txt "}]"))) with (S_ [] (txt "[}]")). rewrite Ascii.eqb_refl. change (rd1 (S_ [] (txt "[}]")) None) with (Some "["%char, S_ (txt "[") (txt "}]")). cbv iota beta. apply Q.
Qed.
(** No text: the character that is tested is not initialised. *)
Theorem c45_empty_refuted : forall n, read_item (S n) (s_open []) = Some UB.
Proof. reflexivity. Qed.
(** Texts that open no list or dictionary end after one call, with a leaf. *)
Theorem c45_leaf_partial : forall c w n, c <> "["%char -> c <> "{"%char ->
  exists v t st, read_item (S n) (s_open (c :: w)) = Some (Ok (JLeaf v t, st)).
Proof.
  intros c w n N1 N2. change (s_open (c :: w)) with (S_ [] (c :: w)). cbn [read_item]. rewrite rd1_S. rewrite back_S by reflexivity. cbn [app].
  rewrite (proj2 (Ascii.eqb_neq _ _) N1), (proj2 (Ascii.eqb_neq _ _) N2). unfold read_leaf. rewrite rd1_S.
  destruct (Ascii.eqb c quote).
  - destruct (sget quote (S_ ([] ++ [c]) w) []) as [v st]. destruct (s_eof st); [eauto|]. destruct (rd1 st (Some c)) as [c' st']. eauto.
  - rewrite back_S by reflexivity. destruct (sget ","%char (S_ [] ([c] ++ w)) []) as [v st]. destruct (upto_close v) as [v' f]. eauto.
Qed.
(** Printed documents of the class of C44 end as well. *)
Theorem c45_printed_partial : forall d, wf d -> print d <> [] -> exists n r, read_item n (s_open (print d)) = Some (Ok r).
Proof. intros d W NE. destruct (c44_roundtrip_partial d W NE) as (f0 & st & E). exists f0. eexists. now rewrite E by lia. Qed.

(** *** The hypotheses can be met *)
Definition ex_doc : json :=
  JDict [(txt "a", JList [leaf_int 3; leaf_text (txt "x,]}y"); JList [leaf_bool true]]); (txt "b", JDict [(txt "c", leaf_text (txt "-1.5e3"))])].
Example c44_hypotheses_met : wf ex_doc /\ typed ex_doc /\ print ex_doc = txt "{""a"":[3,""x,]}y"",[true]],""b"":{""c"":-1.5e3}}" /\
  exists st, read_item 50 (s_open (print ex_doc)) = Some (Ok (ex_doc, st)).
Proof.
  assert (L : forall v, ~ In quote v -> wf (leaf_text v) /\ typed (leaf_text v)) by (intros v; apply (c44_leaves v 0%Z true)).
  assert (A := proj1 (proj2 (c44_leaves [] 3%Z true))). assert (B := proj2 (proj2 (c44_leaves [] 3%Z true))).
  assert (C1 := L (txt "x,]}y") ltac:(cbn; intuition discriminate)). assert (C2 := L (txt "-1.5e3") ltac:(cbn; intuition discriminate)).
  split; [|split; [|split; [reflexivity|eexists; vm_compute; reflexivity]]].
  - unfold ex_doc. cbn [wf]. split; [discriminate|]. split; [repeat constructor|]. split; [cbn; intuition discriminate|]. split.
    + split; [discriminate|]. split; [right; discriminate|]. split; [apply A|]. split; [apply C1|]. split; [|exact I]. split; [discriminate|]. split; [now left|]. split; [apply B|exact I].
    + split; [cbn; intuition discriminate|]. split; [|exact I]. split; [discriminate|]. split; [repeat constructor|]. split; [cbn; intuition discriminate|]. split; [apply C2|exact I].
  - unfold ex_doc. cbn [typed]. split; [|split; [|exact I]].
    + split; [apply A|]. split; [apply C1|]. split; [|exact I]. split; [apply B|exact I].
    + split; [apply C2|exact I].
Qed.
Example c44_keys_met : StronglySorted key_lt (keys [(txt "a", JNull); (txt "ab", JNull)]).
Proof. repeat constructor. Qed.
Example c45_hypotheses_met : txt "1,2" <> [] /\ ~ In "]"%char (txt "1,2").
Proof. split; [discriminate|]. cbn. intuition discriminate. Qed.

Print Assumptions c44_roundtrip_partial.
Print Assumptions c44_equal.
Print Assumptions c44_same.
Print Assumptions c44_leaves.
Print Assumptions c44_keys_sorted.
Print Assumptions c44_empty_string_refuted.
Print Assumptions c44_empty_containers_refuted.
Print Assumptions c45_truncated_refuted.
Print Assumptions c45_stuck_refuted.
Print Assumptions c45_empty_refuted.
Print Assumptions c45_leaf_partial.
Print Assumptions c45_printed_partial.
