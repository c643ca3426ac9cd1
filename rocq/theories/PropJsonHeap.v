(** C72: JSON documents behave as values of their own, although items hold shared pointers. *)
From Verif Require Import Base StreamModel TypeModel JsonModel PropJson JsonHeapModel JsonHeapSpec JsonHeapProofs GraphProofs.
From Coq Require Import Ascii Lia String.
Local Open Scope list_scope.
Local Notation length := List.length.

(** After the statements [cs] on [n] fresh variables. *)
Definition after (n : nat) (cs : list jcmd) : jstate := fst (jrun (jstart n) cs).
(** What a program sees of a place through at(). *)
Definition read (s : jstate) (pl : place) : jout := snd (jget s pl).

(** Any program of assignments, appends and reads gives the same results and exceptions on
    the shared pointers as on independent documents, and leaves every place with the same
    content. *)
Theorem c72_refines n cs : Forall (cmd_in n) cs ->
  snd (jrun (jstart n) cs) = snd (srun (repeat JNull n) cs) /\
  Forall (fun o => o <> JStuck) (snd (jrun (jstart n) cs)) /\
  forall x p, x < n -> read (after n cs) (x, p) = sget (fst (srun (repeat JNull n) cs)) (x, p).
Proof.
  intros C. assert (LN : length (repeat JNull n) = n) by apply repeat_length.
  destruct (jrun_ok cs (jstart n) (repeat JNull n) (holds_start n) ltac:(rewrite LN; exact C)) as (H & E & N & L).
  split; [exact E|]. split; [exact N|]. intros x p Hx. unfold read, after. rewrite (proj1 (jget_ok _ _ (x, p) H ltac:(cbn; lia))). reflexivity.
Qed.

(** *** The documents of a reachable state *)
Lemma reached n cs : Forall (cmd_in n) cs -> exists docs, holds (after n cs) docs /\ length docs = n.
Proof.
  intros C. assert (LN : length (repeat JNull n) = n) by apply repeat_length.
  destruct (jrun_ok cs (jstart n) (repeat JNull n) (holds_start n) ltac:(rewrite LN; exact C)) as (H & E & N & L).
  exists (fst (srun (repeat JNull n) cs)). split; [exact H|lia].
Qed.
Lemma read_ok s docs pl : holds s docs -> fst pl < length docs -> read s pl = sget docs pl.
Proof. intros H L. unfold read. now rewrite (proj1 (jget_ok s docs pl H L)). Qed.

(** *** Places that part *)
Definition parts (p q : list jstep) : Prop := exists r a b p' q', p = r ++ a :: p' /\ q = r ++ b :: q' /\ a <> b.
Lemma dat_put_parts d p q y : parts p q -> dat (put d p y) q = dat d q.
Proof.
  intros (r & a & b & p' & q' & -> & -> & N). revert d. induction r as [|c r IH]; intros d; cbn [app].
  - destruct a as [i|k], d as [|v t|l|m]; cbn [put]; try reflexivity.
    + destruct (nth_error l i) as [e|] eqn:E; [|reflexivity]. destruct b as [j|k]; [|reflexivity]. cbn. rewrite nth_error_upd_other by congruence. reflexivity.
    + destruct (find_key k m) as [e|] eqn:E; [|reflexivity]. destruct b as [j|k']; [reflexivity|]. cbn. rewrite find_put_other by congruence. reflexivity.
  - destruct c as [i|k], d as [|v t|l|m]; cbn [put]; try reflexivity.
    + destruct (nth_error l i) eqn:E; [|reflexivity]. cbn [dat]. rewrite nth_error_upd_same, E by (apply nth_error_Some; congruence). apply IH.
    + destruct (find_key k m) eqn:E; [|reflexivity]. cbn [dat]. rewrite (find_put _ _ _ _ E), E. apply IH.
Qed.
Lemma dat_set_or_new k x m : find_key k (set_or_new k x m) = Some x.
Proof. unfold set_or_new. destruct (find_key k m) eqn:E; [eapply find_put; eauto|now apply find_new]. Qed.
Lemma dat_set_other k k' x m : k <> k' -> find_key k (set_or_new k' x m) = find_key k m.
Proof. intros N. unfold set_or_new. destruct (find_key k' m); [now apply find_put_other|now apply find_new_other]. Qed.
Lemma dat_touch_parts d p q : parts p q -> dat (fst (touch d p)) q = dat d q.
Proof.
  intros (r & a & b & p' & q' & -> & -> & N). revert d. induction r as [|c r IH]; intros d; cbn [app].
  - destruct a as [i|k], d as [|v t|l|m]; cbn [touch]; try reflexivity.
    + destruct (nth_error l i) as [j|] eqn:E; [|reflexivity]. destruct (touch j p') as (x', f). destruct b as [j'|k]; [|reflexivity]. cbn. rewrite nth_error_upd_other by congruence. reflexivity.
    + destruct (touch JNull p') as (x', f). destruct b as [j|k']; [reflexivity|]. cbn. destruct (text_eqb k' k) eqn:E; [|reflexivity]. apply text_eqb_eq in E. congruence.
    + destruct (touch _ p') as (x', f). destruct b as [j|k']; [reflexivity|]. cbn. rewrite dat_set_other by congruence. reflexivity.
  - destruct c as [i|k], d as [|v t|l|m]; cbn [touch]; try reflexivity.
    + destruct (nth_error l i) as [y|] eqn:E; [|reflexivity]. specialize (IH y). destruct (touch y (r ++ a :: p')) as (x', f). cbn [fst dat] in *.
      rewrite nth_error_upd_same, E by (apply nth_error_Some; congruence). exact IH.
    + specialize (IH JNull). destruct (touch JNull (r ++ a :: p')) as (x', f). cbn [fst dat find_key] in *. rewrite text_eqb_refl, IH.
      destruct r as [|[|]]; cbn [app]; try reflexivity. destruct b; reflexivity.
    + specialize (IH match find_key k m with Some x => x | None => JNull end). destruct (touch _ (r ++ a :: p')) as (x', f). cbn [fst dat] in *. rewrite dat_set_or_new, IH.
      destruct (find_key k m); [reflexivity|]. destruct r as [|[|]]; cbn [app]; try reflexivity. destruct b; reflexivity.
Qed.
(** [a] and [b] are in different variables or part. *)
Definition apart (a b : place) : Prop := fst a <> fst b \/ parts (snd a) (snd b).
Definition apart_from (f : jfrom) (b : place) : Prop := match f with FSub a => apart a b | _ => True end.
Lemma sget_sput docs a b y : apart a b -> sget (sput docs a y) b = sget docs b.
Proof.
  intros A. unfold sget, sat, sput. destruct (nth_error docs (fst a)) as [d|] eqn:E; [|reflexivity]. rewrite Base.nth_error_upd.
  destruct (Nat.eqb_spec (fst b) (fst a)) as [X|X]; cbn [andb]; [|reflexivity]. destruct A as [A|A]; [congruence|].
  assert (LT : (fst a <? length docs) = true) by (apply Nat.ltb_lt, nth_error_Some; congruence). rewrite LT. now rewrite X, E, dat_put_parts by exact A.
Qed.
Lemma sget_stouch docs a b : apart a b -> sget (fst (stouch docs a)) b = sget docs b.
Proof.
  intros A. unfold sget, sat, stouch. destruct (nth_error docs (fst a)) as [d|] eqn:E; [|reflexivity]. cbn [fst]. rewrite Base.nth_error_upd.
  destruct (Nat.eqb_spec (fst b) (fst a)) as [X|X]; cbn [andb]; [|reflexivity]. destruct A as [A|A]; [congruence|].
  assert (LT : (fst a <? length docs) = true) by (apply Nat.ltb_lt, nth_error_Some; congruence). rewrite LT. now rewrite X, E, dat_touch_parts by exact A.
Qed.
Lemma sget_seval docs f b : apart_from f b -> sget (fst (seval docs f)) b = sget docs b.
Proof. destruct f; cbn; intros A; [reflexivity|now apply sget_stouch|reflexivity]. Qed.

(** An assignment or append changes nothing that is apart from its target (and from a source
    written with operator\[\], which creates missing keys). *)
Theorem c72_frame n cs c t f b : Forall (cmd_in n) cs -> c = JAssign t f \/ c = JAppend t f -> cmd_in n c -> fst b < n ->
  apart t b -> apart_from f b -> read (fst (jexec (after n cs) c)) b = read (after n cs) b.
Proof.
  intros C Ec Cc Hb A AF. destruct (reached n cs C) as (docs & H & <-).
  destruct (jexec_ok _ _ c H Cc) as (H' & _ & _ & L'). rewrite (read_ok _ _ b H' ltac:(lia)), (read_ok _ _ b H Hb).
  destruct Ec as [-> | ->]; cbn [sexec].
  - unfold sassign. pose proof (sget_seval docs f b AF) as E1. destruct (seval docs f) as (docs1, b1). cbn [fst] in E1. destruct b1; [|exact E1].
    pose proof (sget_stouch docs1 t b A) as E2. destruct (stouch docs1 t) as (docs2, b2). cbn [fst] in E2. destruct b2; [|cbn; congruence].
    destruct (svalue docs2 f); cbn [fst]; rewrite ?sget_sput by exact A; congruence.
  - unfold sappend. pose proof (sget_stouch docs t b A) as E1. destruct (stouch docs t) as (docs1, b1). cbn [fst] in E1. destruct b1; [|exact E1].
    pose proof (sget_seval docs1 f b AF) as E2. destruct (seval docs1 f) as (docs2, b2). cbn [fst] in E2. destruct b2; [|cbn; congruence].
    destruct (svalue docs2 f) as [y| |]; cbn [fst]; try congruence. destruct (sat docs2 t) as [[| | |]| |]; cbn [fst]; rewrite ?sget_sput by exact A; congruence.
Qed.

(** *** Reading back *)
Lemma touch_dat d p : forall e, dat d p = Ok e -> touch d p = (d, true).
Proof.
  revert d. induction p as [|q p IH]; intros d e E; [reflexivity|]. destruct q as [i|k]; cbn in *.
  - destruct d as [| |l|]; try discriminate. destruct (nth_error l i) as [x|] eqn:EN; [|discriminate]. now rewrite (IH _ _ E), upd_same.
  - destruct d as [| | |m]; try discriminate. destruct (find_key k m) as [x|] eqn:EN; [|discriminate]. rewrite (IH _ _ E). unfold set_or_new. now rewrite EN, put_same_key.
Qed.
Lemma dat_touch d p : snd (touch d p) = true -> exists e, dat (fst (touch d p)) p = Ok e.
Proof.
  revert d. induction p as [|q p IH]; intros d E; [cbn; eauto|]. destruct q as [i|k]; cbn [touch] in *.
  - destruct d as [| |l|]; try discriminate. destruct (nth_error l i) as [x|] eqn:EN; [|discriminate]. specialize (IH x). destruct (touch x p) as (x', f). cbn [fst snd dat] in *.
    rewrite nth_error_upd_same by (apply nth_error_Some; congruence). auto.
  - destruct d as [| | |m]; try discriminate.
    + specialize (IH JNull). destruct (touch JNull p) as (x', f). cbn [fst snd dat find_key] in *. rewrite text_eqb_refl. auto.
    + specialize (IH match find_key k m with Some x => x | None => JNull end). destruct (touch _ p) as (x', f). cbn [fst snd dat] in *. rewrite dat_set_or_new. auto.
Qed.
Lemma sat_stouch docs t : snd (stouch docs t) = true -> exists e, sat (fst (stouch docs t)) t = Ok e.
Proof.
  unfold stouch, sat. destruct (nth_error docs (fst t)) as [d|] eqn:E; [|discriminate]. cbn [fst snd]. intros T.
  rewrite nth_error_upd_same by (apply nth_error_Some; congruence). now apply dat_touch.
Qed.
Lemma stouch_sat docs t e : sat docs t = Ok e -> stouch docs t = (docs, true).
Proof.
  unfold stouch, sat. destruct (nth_error docs (fst t)) as [d|] eqn:E; [|discriminate]. intros D. rewrite (touch_dat _ _ _ D). cbn [fst snd]. now rewrite upd_same.
Qed.
Lemma sget_val docs t d : sget docs t = JVal d <-> sat docs t = Ok d.
Proof. unfold sget. destruct (sat docs t); split; congruence. Qed.

(** An assigned document is read back, whatever was there before. *)
Theorem c72_assign_document n cs t d : Forall (cmd_in n) cs -> fst t < n ->
  snd (jexec (after n cs) (JAssign t (FDoc d))) = JDone -> read (fst (jexec (after n cs) (JAssign t (FDoc d)))) t = JVal d.
Proof.
  intros C Ht E. destruct (reached n cs C) as (docs & H & <-).
  destruct (jexec_ok _ _ (JAssign t (FDoc d)) H) as (H' & EO & _ & L'); [cbn; auto|]. rewrite (read_ok _ _ t H' ltac:(lia)). rewrite E in EO. symmetry in EO.
  cbn [sexec] in *. unfold sassign in *. cbn [seval svalue] in *. pose proof (sat_stouch docs t) as X. destruct (stouch docs t) as (docs2, b2). cbn [fst snd] in X.
  destruct b2; [|discriminate]. destruct (X eq_refl) as (e & V). cbn [fst]. apply sget_val. eapply sat_sput; eauto.
Qed.
(** to = from.at(..), both places existing: succeeds, and [to] then reads what [from] read. In
    particular from a part to the whole and from the whole to a part of itself. *)
Theorem c72_assign_place n cs t a d e : Forall (cmd_in n) cs -> fst t < n -> fst a < n ->
  read (after n cs) a = JVal d -> read (after n cs) t = JVal e ->
  forall f, f = FAt a \/ f = FSub a ->
  snd (jexec (after n cs) (JAssign t f)) = JDone /\ read (fst (jexec (after n cs) (JAssign t f))) t = JVal d.
Proof.
  intros C Ht Ha Ra Rt f Ef. destruct (reached n cs C) as (docs & H & <-).
  destruct (jexec_ok _ _ (JAssign t f) H) as (H' & EO & _ & L'); [destruct Ef as [-> | ->]; cbn; auto|].
  rewrite (read_ok _ _ t H' ltac:(lia)). rewrite (read_ok _ _ a H Ha) in Ra. rewrite (read_ok _ _ t H Ht) in Rt. apply sget_val in Ra. apply sget_val in Rt.
  assert (ES : sexec docs (JAssign t f) = (sput docs t d, JDone)).
  { cbn [sexec]. unfold sassign. destruct Ef as [-> | ->]; cbn [seval svalue]; rewrite ?(stouch_sat _ _ _ Ra), ?Ra, (stouch_sat _ _ _ Rt), Ra; reflexivity. }
  rewrite ES in *. cbn [fst snd] in *. split; [exact EO|]. apply sget_val. eapply sat_sput; eauto.
Qed.
(** append to a list: the list grows by the document, which is read back at the end. *)
Theorem c72_append n cs t ds f d : Forall (cmd_in n) cs -> cmd_in n (JAppend t f) -> read (after n cs) t = JVal (JList ds) ->
  match f with FDoc d' => d' = d | FSub a | FAt a => read (after n cs) a = JVal d end ->
  snd (jexec (after n cs) (JAppend t f)) = JDone /\ read (fst (jexec (after n cs) (JAppend t f))) t = JVal (JList (ds ++ [d])).
Proof.
  intros C (Ht & Hf) Rt Rf. destruct (reached n cs C) as (docs & H & <-).
  destruct (jexec_ok _ _ (JAppend t f) H (conj Ht Hf)) as (H' & EO & _ & L').
  rewrite (read_ok _ _ t H' ltac:(lia)). rewrite (read_ok _ _ t H Ht) in Rt. apply sget_val in Rt.
  assert (ES : sexec docs (JAppend t f) = (sput docs t (JList (ds ++ [d])), JDone)).
  { cbn [sexec]. unfold sappend. rewrite (stouch_sat _ _ _ Rt). destruct f as [d'|a|a]; cbn [seval svalue from_in] in *.
    - subst d'. now rewrite Rt.
    - rewrite (read_ok _ _ a H Hf) in Rf. apply sget_val in Rf. now rewrite (stouch_sat _ _ _ Rf), Rf, Rt.
    - rewrite (read_ok _ _ a H Hf) in Rf. apply sget_val in Rf. now rewrite Rf, Rt. }
  rewrite ES in *. cbn [fst snd] in *. split; [exact EO|]. apply sget_val. eapply sat_sput; eauto.
Qed.

Print Assumptions c72_refines.
Print Assumptions c72_frame.
Print Assumptions c72_assign_document.
Print Assumptions c72_assign_place.
Print Assumptions c72_append.

(** *** The hypotheses are met *)
(** x["a"] = "1"; x["l"].append(x); y = x; y["a"] = 2; x["l"] is left, x.at("a") too. *)
Definition ex_prog : list jcmd :=
  [JAssign (0, [SKey (txt "a")]) (FDoc (leaf_text (txt "1")));
   JAppend (0, [SKey (txt "l")]) (FAt (0, []));
   JAssign (1, []) (FSub (0, []));
   JAssign (1, [SKey (txt "a")]) (FDoc (JList [leaf_int 2]));
   JAssign (0, [SKey (txt "a"); SIdx 0]) (FDoc JNull)].
Example ex_in : Forall (cmd_in 2) ex_prog.
Proof. repeat constructor; cbn; lia. Qed.
Example ex_run :
  snd (jrun (jstart 2) ex_prog) = [JDone; JDone; JDone; JDone; JThrow] /\
  read (after 2 ex_prog) (0, [SKey (txt "a")]) = JVal (leaf_text (txt "1")) /\
  read (after 2 ex_prog) (1, [SKey (txt "a"); SIdx 0]) = JVal (leaf_int 2) /\
  read (after 2 ex_prog) (1, [SKey (txt "l")]) = JVal (JList [JDict [(txt "a", leaf_text (txt "1")); (txt "l", JNull)]]).
Proof. vm_compute. auto. Qed.
(** c72_frame, c72_assign_place with a part of the target as source, c72_append. *)
Example ex_frame : apart (1, [SKey (txt "a")]) (0, [SKey (txt "a")]) /\ apart (0, [SKey (txt "l"); SIdx 0]) (0, [SKey (txt "a")]).
Proof. split; [left; discriminate|]. right. exists [], (SKey (txt "l")), (SKey (txt "a")), [SIdx 0], []. split; [reflexivity|]. split; [reflexivity|discriminate]. Qed.
Example ex_part :
  let s := fst (jexec (after 2 ex_prog) (JAssign (0, []) (FAt (0, [SKey (txt "l"); SIdx 0])))) in
  snd (jget s (0, [])) = JVal (JDict [(txt "a", leaf_text (txt "1")); (txt "l", JNull)]).
Proof. vm_compute. reflexivity. Qed.
Example ex_append :
  snd (jget (fst (jexec (after 2 ex_prog) (JAppend (1, [SKey (txt "a")]) (FAt (1, [SKey (txt "a")]))))) (1, [SKey (txt "a")]))
  = JVal (JList [leaf_int 2; JList [leaf_int 2]]).
Proof. vm_compute. reflexivity. Qed.
