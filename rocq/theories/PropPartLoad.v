(** Property C97: what loading a document changes, also when it fails. *)
From Coq Require Import Ascii String Reals Lra Lia List.
From Verif Require Import Base TypeModel PropTypes StreamModel JsonModel PropJson DumpModel PropDump LoadModel.
Import ListNotations.
Local Open Scope list_scope.
Local Open Scope nat_scope.
Local Notation length := List.length.

(** *** The two models of loading agree *)
Definition agrees {A} (p : after A) (m : res A) : Prop :=
  match m with Ok s => p = (s, Ok tt) | Throw => snd p = Throw | UB => snd p = UB end.
Lemma agrees_done {A} (s : A) : agrees (done s) (Ok s).
Proof. reflexivity. Qed.
Lemma agrees_reading {A B} (s : A) (m : res B) k k' : (forall x, m = Ok x -> agrees (k x) (k' x)) -> agrees (reading s m k) (bind m k').
Proof. destruct m; cbn; auto. Qed.
Lemma agrees_andthen {A} (p : after A) m k k' : agrees p m -> (forall s, m = Ok s -> agrees (k s) (k' s)) -> agrees (andthen p k) (bind m k').
Proof. intros H K. destruct m; cbn [bind agrees] in *; unfold andthen; [rewrite H; cbn; auto|rewrite H; reflexivity|rewrite H; reflexivity]. Qed.
Lemma agrees_inside_then {A B} (g : B -> A) p m k (k' : B -> res A) : agrees p m -> (forall x, m = Ok x -> agrees (k (g x)) (k' x)) -> agrees (andthen (inside g p) k) (bind m k').
Proof. intros H K. destruct m; cbn [bind agrees] in *; unfold andthen, inside; [rewrite H; cbn; auto|cbn [snd]; rewrite H; reflexivity|cbn [snd]; rewrite H; reflexivity]. Qed.
Lemma agrees_inside {A B} (g : B -> A) p m : agrees p m -> agrees (inside g p) (bind m (fun x => Ok (g x))).
Proof. intros H. destruct m; cbn [bind agrees] in *; unfold inside; [rewrite H; reflexivity|exact H|exact H]. Qed.
Lemma agrees_for {A} n b b' : (forall i (s : A), agrees (b i s) (b' i s)) -> forall s, agrees (fors n b s) (for_ n b' s).
Proof.
  intros H. unfold fors, for_. generalize 0. induction n as [|n IH]; intros i s; [reflexivity|]. cbn [fors_from for_from]. apply agrees_andthen; [apply H|]. intros s' _. apply IH.
Qed.
Lemma reading_done {A} (s : A) m : agrees (reading s m done) m.
Proof. destruct m; reflexivity. Qed.
Lemma fields_agrees t d f : agrees (fields_st t d f) (load_fields t d).
Proof. unfold fields_st, load_fields. repeat (apply agrees_reading; intros ? _). reflexivity. Qed.
Section Agree.
  Variable fl : R -> R.
  Lemma matrix_agrees src r c w : agrees (matrix_st fl src r c (resize (DFin false 0%R) (r * c) w)) (load_matrix fl src r c w).
  Proof. unfold matrix_st, load_matrix. apply agrees_for. intros i s. apply agrees_for. intros j s'. apply reading_done. Qed.
  Lemma vector_agrees src n b : agrees (vector_st fl src n (resize (DFin false 0%R) n b)) (load_vector fl src n b).
  Proof. unfold vector_st, load_vector. apply agrees_for. intros i s. apply reading_done. Qed.
  Lemma load_agrees l d : agrees (load_st fl l d) (load fl l d).
  Proof.
    destruct l as [t f|f al|f w b|f k s p n w b|t f k s|f x|f x|f a h s w1 w2 w3 b1 b2]; cbn [load_st load].
    - apply agrees_inside, fields_agrees.
    - apply (agrees_inside (fun f => DElu f al)), fields_agrees.
    - unfold dense_st, load_dense. apply agrees_inside_then; [apply fields_agrees|]. intros g _. cbn [fields_of]. repeat (apply agrees_reading; intros ? _).
      apply agrees_inside_then; [apply matrix_agrees|]. intros w' _. apply (agrees_inside (fun b => DDense g w' b)), vector_agrees.
    - unfold conv_st, load_conv. apply agrees_inside_then; [apply fields_agrees|]. intros g _. cbn [fields_of]. repeat (apply agrees_reading; intros ? _).
      apply agrees_inside_then; [do 4 (apply agrees_for; intros ? ?); apply reading_done|]. intros w' _. apply agrees_inside with (g := fun b => DConv g _ _ _ _ w' b), vector_agrees.
    - unfold pool_st, load_pool. apply agrees_inside_then; [apply fields_agrees|]. intros g _. cbn [fields_of]. repeat (apply agrees_reading; intros ? _). reflexivity.
    - apply agrees_inside_then; [apply fields_agrees|]. intros g _. cbn [fields_of]. destruct (other d _) as [o| |]; cbn [bind]; [|reflexivity|reflexivity]. apply agrees_reading. reflexivity.
    - apply agrees_inside_then; [apply fields_agrees|]. intros g _. cbn [fields_of]. destruct (other d _) as [o| |]; cbn [bind]; [|reflexivity|reflexivity]. apply agrees_reading. reflexivity.
    - unfold rec_st, load_rec. apply agrees_inside_then; [apply fields_agrees|]. intros g _. cbn [fields_of]. do 5 (apply agrees_reading; intros ? _). cbv zeta.
      do 3 (apply agrees_inside_then; [apply matrix_agrees|]; intros ? _). apply agrees_inside_then; [apply vector_agrees|]. intros ? _.
      apply agrees_inside with (g := fun b => DRec g _ _ _ _ _ _ _ b), vector_agrees.
  Qed.
End Agree.

(** *** Loading never changes the class of a layer *)
Lemma keeps_reading {A B} (P : A -> Prop) s (m : res B) k : P s -> (forall x, P (fst (k x))) -> P (fst (reading s m k)).
Proof. destruct m; cbn; auto. Qed.
Lemma keeps_andthen {A} (P : A -> Prop) p k : P (fst p) -> (forall s, P s -> P (fst (k s))) -> P (fst (andthen p k)).
Proof. unfold andthen. destruct p as (s & [u| |]); cbn; auto. Qed.
Lemma keeps_inside {A B} (P : A -> Prop) (g : B -> A) p : (forall x, P (g x)) -> P (fst (inside g p)).
Proof. intros K. apply K. Qed.
Lemma load_class fl l d : same_class l (fst (load_st fl l d)).
Proof.
  destruct l as [t f|f al|f w b|f k s p n w b|t f k s|f x|f x|f a h s w1 w2 w3 b1 b2]; cbn [load_st].
  - apply keeps_inside. reflexivity.
  - apply keeps_inside. exact (fun _ => Logic.I).
  - unfold dense_st. apply keeps_andthen; [apply keeps_inside; easy|]. intros l Hl. do 2 (apply keeps_reading; [exact Hl|]; intros ?). cbv zeta. apply keeps_andthen; [apply keeps_inside; easy|]. intros l' Hl'. apply keeps_inside. intros y. now destruct l'.
  - unfold conv_st. apply keeps_andthen; [apply keeps_inside; easy|]. intros l Hl. do 5 (apply keeps_reading; [first [exact Hl|easy]|]; intros ?; cbv zeta). apply keeps_andthen; [apply keeps_inside; easy|]. intros l' Hl'. apply keeps_inside. intros y. now destruct l'.
  - unfold pool_st. apply keeps_andthen; [apply keeps_inside; easy|]. intros l Hl. do 2 (apply keeps_reading; [first [exact Hl|easy]|]; intros ?; cbv zeta). easy.
  - apply keeps_andthen; [apply keeps_inside; easy|]. intros l Hl. apply keeps_reading; [exact Hl|]. easy.
  - apply keeps_andthen; [apply keeps_inside; easy|]. intros l Hl. apply keeps_reading; [exact Hl|]. easy.
  - unfold rec_st. apply keeps_andthen; [apply keeps_inside; easy|]. intros l Hl. do 5 (apply keeps_reading; [first [exact Hl|easy]|]; intros ?; cbv zeta).
    apply keeps_andthen; [apply keeps_inside; easy|]. intros l1 Hl1. do 3 (apply keeps_andthen; [apply keeps_inside; intros y; now destruct l1|]; clear l1 Hl1; intros l1 Hl1). apply keeps_inside. intros y. now destruct l1.
Qed.

(** *** The layers one after the other *)
(** The document of the [i]-th layer, as Model::load takes it *)
Definition layer_doc (d : json) (i : nat) : res json := js <- get_key d (txt "layers") ;; sub_idx js i.
Fixpoint load_layers (fl : R -> R) (d : json) (i : nat) (ls : list dlayer) : list dlayer * res Datatypes.unit :=
  match ls with
  | [] => ([], Ok tt)
  | l :: rest =>
      match layer_doc d i with
      | Ok j => match load_st fl l j with
                | (l', Ok _) => let '(ls', r) := load_layers fl d (S i) rest in (l' :: ls', r)
                | (l', r) => (l' :: rest, r)
                end
      | Throw => (ls, Throw)
      | UB => (ls, UB)
      end
  end.
Lemma upd_app_here {A} (u v : list A) x y : upd (u ++ x :: v) (length u) y = u ++ y :: v.
Proof. induction u as [|a u IH]; cbn; [reflexivity|now f_equal]. Qed.
Lemma fors_layers fl d ls : forall pre,
  fors_from (length pre) (length ls) (fun i ls => reading ls (js <- get_key d (txt "layers") ;; sub_idx js i) (fun j =>
      reading ls (rd ls i) (fun l => inside (fun l' => upd ls i l') (load_st fl l j)))) (pre ++ ls) =
  (pre ++ fst (load_layers fl d (length pre) ls), snd (load_layers fl d (length pre) ls)).
Proof.
  induction ls as [|l ls IH]; intros pre; [reflexivity|]. cbn [fors_from load_layers length].
  fold (layer_doc d (length pre)). destruct (layer_doc d (length pre)) as [j| |] eqn:E; cbn [reading]; [|reflexivity|reflexivity].
  rewrite (rd_nth _ _ l) by (rewrite app_length; cbn; lia). cbn [reading]. rewrite nth_middle. unfold inside at 1. cbn [reading]. rewrite upd_app_here.
  destruct (load_st fl l j) as (l' & [u| |]) eqn:El; unfold andthen; cbn [fst snd]; [|reflexivity|reflexivity].
  specialize (IH (pre ++ [l'])). rewrite app_length, <- app_assoc in IH. cbn [app length] in IH. replace (length pre + 1) with (S (length pre)) in IH by lia. rewrite IH.
  destruct (load_layers fl d (S (length pre)) ls) as (ls' & r'). cbn [fst snd]. now rewrite <- app_assoc.
Qed.
Lemma load_model_layers fl m d name : (jn <- get_key d (txt "name") ;; as_text jn) = Ok name ->
  load_model_st fl m d = (mkDM name (fst (load_layers fl d 0 (m_layers m))), snd (load_layers fl d 0 (m_layers m))).
Proof. intros E. unfold load_model_st. rewrite E. cbn [reading]. unfold fors. pose proof (fors_layers fl d (m_layers m) []) as Q. cbn [app length] in Q. rewrite Q. reflexivity. Qed.

Lemma model_agrees fl m d : agrees (load_model_st fl m d) (load_model fl m d).
Proof.
  unfold load_model_st, load_model. rewrite <- bind_assoc. apply agrees_reading. intros name _. apply (agrees_inside (mkDM name)). apply agrees_for. intros i s.
  destruct (get_key d (txt "layers")) as [js| |]; cbn [bind]; [|reflexivity|reflexivity]. apply agrees_reading. intros j _. apply agrees_reading. intros l Hl.
  pose proof (load_agrees fl l j) as A. destruct (load fl l j) as [l'| |]; cbn [agrees bind] in *; unfold inside; [|exact A|exact A].
  rewrite A. cbn [fst snd]. rewrite wr_ok by (apply rd_not_UB; congruence). reflexivity.
Qed.

(** Any document, also one that no model wrote: the classes and the number of the layers stay;
    the call ends as [load_model] says; if it fails there is a layer such that all layers before
    it were loaded completely and all layers after it are as they were. *)
Theorem c97_any : forall fl m d m' r, load_model_st fl m d = (m', r) ->
  Forall2 same_class (m_layers m) (m_layers m') /\
  match load_model fl m d with Ok m1 => m' = m1 /\ r = Ok tt | Throw => r = Throw | UB => r = UB end /\
  (r <> Ok tt -> exists k,
     (forall i, i < k -> exists l j l', nth_error (m_layers m) i = Some l /\ layer_doc d i = Ok j /\ load fl l j = Ok l' /\ nth_error (m_layers m') i = Some l') /\
     (forall i, k < i -> nth_error (m_layers m') i = nth_error (m_layers m) i)).
Proof.
  intros fl m d m' r E. split; [|split].
  - destruct (jn <- get_key d (txt "name") ;; as_text jn) as [name| |] eqn:En; [rewrite (load_model_layers _ _ _ _ En) in E|unfold load_model_st in E; rewrite En in E; cbn [reading] in E|unfold load_model_st in E; rewrite En in E; cbn [reading] in E]; injection E as <- <-.
    2, 3: induction (m_layers m) as [|l ls IH]; constructor; [now destruct l|exact IH].
    cbn [m_layers]. generalize 0. induction (m_layers m) as [|l ls IH]; intros i; [constructor|]. cbn [load_layers].
    assert (SC : forall a, same_class a a) by (intros []; cbn; auto). assert (FA : forall a, Forall2 same_class a a) by (induction a; constructor; auto).
    destruct (layer_doc d i) as [j| |]; cbn [fst]; [|apply FA|apply FA]. pose proof (load_class fl l j) as C. destruct (load_st fl l j) as (l' & [u| |]); cbn [fst] in *; [|constructor; auto|constructor; auto].
    specialize (IH (S i)). destruct (load_layers fl d (S i) ls) as (ls' & r'). cbn [fst] in *. constructor; auto.
  - pose proof (model_agrees fl m d) as A. rewrite E in A. destruct (load_model fl m d); cbn [agrees snd] in A; [injection A as -> ->; auto|exact A|exact A].
  - intros Hr. destruct (jn <- get_key d (txt "name") ;; as_text jn) as [name| |] eqn:En; [rewrite (load_model_layers _ _ _ _ En) in E|unfold load_model_st in E; rewrite En in E; cbn [reading] in E|unfold load_model_st in E; rewrite En in E; cbn [reading] in E]; injection E as <- <-.
    2, 3: exists 0; split; [intros; lia|reflexivity].
    cbn [m_layers]. 
    assert (G : forall ls i, snd (load_layers fl d i ls) <> Ok tt -> exists k,
      (forall q, q < k -> exists l j l', nth_error ls q = Some l /\ layer_doc d (i + q) = Ok j /\ load fl l j = Ok l' /\ nth_error (fst (load_layers fl d i ls)) q = Some l') /\
      (forall q, k < q -> nth_error (fst (load_layers fl d i ls)) q = nth_error ls q)); [|destruct (G _ _ Hr) as (k & G1 & G2); exists k; split; [exact G1|exact G2]].
    induction ls as [|l ls IH]; intros i Hi; [now contradict Hi|]. cbn [load_layers] in *. destruct (layer_doc d i) as [j| |] eqn:Ed.
    2, 3: exists 0; split; [intros; lia|reflexivity].
    pose proof (load_agrees fl l j) as A. destruct (load_st fl l j) as (l' & [u| |]) eqn:El.
    2, 3: exists 0; split; [intros; lia|intros [|q] Hq; [lia|reflexivity]].
    specialize (IH (S i)). destruct (load_layers fl d (S i) ls) as (ls' & r'). cbn [fst snd] in *. destruct (IH Hi) as (k & K1 & K2). exists (S k). split; intros [|q] Hq; [|..|lia|].
    + exists l, j, l'. rewrite Nat.add_0_r. repeat split; [exact Ed|]. destruct (load fl l j) as [x| |]; cbn [agrees snd] in A; [now injection A as -> _|discriminate A|discriminate A].
    + replace (i + S q) with (S i + q) by lia. apply K1. lia.
    + cbn. apply K2. lia.
Qed.

(** *** Documents written by a model *)
(** Layers of the classes of the library *)
Definition library (l : dlayer) : Prop :=
  match l with
  | DPlain t _ => In t [txt "Relu"; txt "Softmax"; txt "Tanh"; txt "Sigmoid"; txt "Linear"; txt "Concatenate"; txt "CCELoss"]
  | DPool t _ _ _ => In t [txt "AveragePool"; txt "MaxPool"]
  | _ => True
  end.
Lemma library_class l0 l : library l0 -> library l -> type_of l0 = type_of l -> same_class l0 l.
Proof.
  destruct l0, l; cbn [library type_of same_class]; intros A B E; try exact Logic.I; try exact E; try discriminate E; exfalso; subst;
    repeat match goal with H : In _ _ |- _ => cbn [In] in H; repeat destruct H as [H|H]; try discriminate H; try contradiction H; try (rewrite <- H in *; clear H) end;
    try discriminate.
Qed.

Lemma load_refused fl l0 l : type_of l0 <> type_of l -> load_st fl l0 (doc_of l) = (l0, Throw).
Proof.
  intros N. assert (E : forall f, fields_st (type_of l0) (doc_of l) f = (f, Throw)).
  { intros f. unfold fields_st, doc_of, at_key, doc_map. cbn [guard reading]. replace (map_find (txt "type") _) with (Some (leaf_text (type_of l))) by (destruct l; reflexivity). cbn [reading as_text as_leaf leaf_text].
    destruct (text_eqb (type_of l) (type_of l0)) eqn:Q; [apply text_eqb_eq in Q; congruence|reflexivity]. }
  destruct l0; cbn [load_st type_of] in *; unfold dense_st, conv_st, pool_st, rec_st; rewrite E; reflexivity.
Qed.
Lemma load_accepted F fl l0 l : ok_layer l -> Forall (finite F) (numbers l) -> same_class l0 l -> load_st fl l0 (doc_of l) = (restored fl l0 l, Ok tt).
Proof. intros A B C. pose proof (load_agrees fl l0 (doc_of l)) as G. rewrite (load_doc F) in G by assumption. exact G. Qed.
Lemma layer_doc_saved m i : layer_doc (model_doc m) i = match nth_error (m_layers m) i with Some l => Ok (doc_of l) | None => Throw end.
Proof.
  unfold layer_doc. replace (get_key (model_doc m) (txt "layers")) with (Ok (jl (map doc_of (m_layers m)))) by reflexivity. cbn [bind].
  destruct (m_layers m) as [|l ls]; [now destruct i|]. change (jl (map doc_of (l :: ls))) with (JList (map doc_of (l :: ls))). cbn [at_idx]. rewrite nth_error_map. now destruct (nth_error (l :: ls) i).
Qed.

(** A network loads the file of another: it takes over the name, then layer after layer of the
    file up to the first that is missing or of another class; there it stops with an exception.
    The layers from there on are as they were. *)
Theorem c97_saved : forall F fl m0 m, nearest F fl -> model_ok F m -> Forall library (m_layers m0) -> Forall library (m_layers m) ->
  exists d k m', dump_model m = Ok d /\
    (m_layers m <> [] -> ~ In quote (m_name m) -> Forall file_layer (m_layers m) -> exists n0, forall n, n0 <= n -> read_back n d = Some (Ok d)) /\
    load_model_st fl m0 d = (m', if k =? length (m_layers m0) then Ok tt else Throw) /\ m_name m' = m_name m /\
    (forall i, i < k -> exists l0 l l', nth_error (m_layers m0) i = Some l0 /\ nth_error (m_layers m) i = Some l /\ nth_error (m_layers m') i = Some l' /\
       type_of l0 = type_of l /\ frame l' = frame l /\ Forall2 (close (1 / 10 ^ 6)) (numbers l) (numbers l')) /\
    (forall i, k <= i -> nth_error (m_layers m') i = nth_error (m_layers m0) i) /\
    (k = length (m_layers m0) \/ exists l0, nth_error (m_layers m0) k = Some l0 /\
       (nth_error (m_layers m) k = None \/ exists l, nth_error (m_layers m) k = Some l /\ type_of l0 <> type_of l)).
Proof.
  intros F fl m0 m Hn H L0 L.
  assert (OK : Forall ok_layer (m_layers m)) by (eapply Forall_impl; [|exact H]; now intros l (A & _)).
  assert (G : forall ls0 i, Forall library ls0 -> exists k,
    snd (load_layers fl (model_doc m) i ls0) = (if k =? length ls0 then Ok tt else Throw) /\
    (forall q, q < k -> exists l0 l l', nth_error ls0 q = Some l0 /\ nth_error (m_layers m) (i + q) = Some l /\ nth_error (fst (load_layers fl (model_doc m) i ls0)) q = Some l' /\
       type_of l0 = type_of l /\ frame l' = frame l /\ Forall2 (close (1 / 10 ^ 6)) (numbers l) (numbers l')) /\
    (forall q, k <= q -> nth_error (fst (load_layers fl (model_doc m) i ls0)) q = nth_error ls0 q) /\
    (k = length ls0 \/ exists l0, nth_error ls0 k = Some l0 /\ (nth_error (m_layers m) (i + k) = None \/ exists l, nth_error (m_layers m) (i + k) = Some l /\ type_of l0 <> type_of l))).
  { induction ls0 as [|l0 ls0 IH]; intros i HL.
    - exists 0. split; [reflexivity|]. split; [intros; lia|]. split; [reflexivity|now left].
    - inversion HL as [|? ? H0 HL']; subst. cbn [load_layers]. rewrite layer_doc_saved. destruct (nth_error (m_layers m) i) as [l|] eqn:E.
      + assert (I : In l (m_layers m)) by (eapply nth_error_In; exact E). unfold model_ok in H. rewrite Forall_forall in H, L. destruct (H l I) as (A & B). specialize (L l I).
        destruct (text_eqb (type_of l0) (type_of l)) eqn:Et.
        * apply text_eqb_eq in Et. assert (C : same_class l0 l) by now apply library_class. rewrite (load_accepted F) by assumption. destruct (IH (S i) HL') as (k & K1 & K2 & K3 & K4).
          destruct (load_layers fl (model_doc m) (S i) ls0) as (ls' & r). cbn [fst snd] in *. exists (S k). split; [exact K1|]. split; [|split].
          -- intros [|q] Hq.
             ++ exists l0, l, (restored fl l0 l). rewrite Nat.add_0_r. repeat split; [exact E|exact Et|apply frame_restored|]. rewrite numbers_restored. apply Forall2_map_r. eapply Forall_impl; [|exact B]. intros x Hx. now apply (trip_close fl F).
             ++ destruct (K2 q) as (a & b & c & P); [lia|]. exists a, b, c. replace (i + S q) with (S i + q) by lia. exact P.
          -- intros [|q] Hq; [lia|]. cbn [nth_error]. apply K3. lia.
          -- destruct K4 as [->|(a & P)]; [now left|]. right. exists a. replace (i + S k) with (S i + k) by lia. exact P.
        * assert (Nt : type_of l0 <> type_of l) by (intros Q; rewrite Q, text_eqb_same in Et; discriminate). rewrite load_refused by exact Nt. exists 0. split; [reflexivity|]. split; [intros; lia|]. split; [reflexivity|].
          right. exists l0. split; [reflexivity|]. right. exists l. rewrite Nat.add_0_r. auto.
      + exists 0. split; [reflexivity|]. split; [intros; lia|]. split; [reflexivity|]. right. exists l0. rewrite Nat.add_0_r. auto. }
  destruct (G (m_layers m0) 0 L0) as (k & K1 & K2 & K3 & K4). exists (model_doc m), k, (mkDM (m_name m) (fst (load_layers fl (model_doc m) 0 (m_layers m0)))).
  split; [now apply dump_model_ok|]. split.
  { intros NE Q FL. destruct (c43_model_file F fl m m Hn H) as (d & n0 & m' & E1 & E2 & _); auto.
    - clear. induction (m_layers m) as [|l ls IH]; constructor; [destruct l; cbn; auto|exact IH].
    - rewrite dump_model_ok in E1 by exact OK. injection E1 as <-. eauto. }
  split; [rewrite (load_model_layers fl m0 (model_doc m) (m_name m)) by reflexivity; now rewrite K1|]. auto.
Qed.

(** Loading succeeds exactly for the files that begin with layers of the classes of the network. *)
Theorem c97_accepts : forall F fl m0 m d, nearest F fl -> model_ok F m -> Forall library (m_layers m0) -> Forall library (m_layers m) -> dump_model m = Ok d ->
  (snd (load_model_st fl m0 d) = Ok tt <-> exists rest, map type_of (m_layers m) = map type_of (m_layers m0) ++ rest).
Proof.
  intros F fl m0 m d Hn H L0 L Ed. destruct (c97_saved F fl m0 m Hn H L0 L) as (d' & k & m' & E1 & _ & E2 & _ & K1 & _ & K2). rewrite Ed in E1. injection E1 as <-. rewrite E2. cbn [snd].
  assert (K : forall i, i < k -> i < length (m_layers m0) /\ nth_error (map type_of (m_layers m)) i = nth_error (map type_of (m_layers m0)) i).
  { intros i Hi. destruct (K1 i Hi) as (l0 & l & l' & Q1 & Q2 & _ & Q3 & _). rewrite !nth_error_map, Q1, Q2. cbn [option_map]. split; [apply nth_error_Some; congruence|congruence]. }
  clear K1. split.
  - intros E. destruct (Nat.eqb_spec k (length (m_layers m0))) as [->|]; [|discriminate E]. exists (skipn (length (m_layers m0)) (map type_of (m_layers m))).
    rewrite <- (firstn_skipn (length (m_layers m0)) (map type_of (m_layers m))) at 1. f_equal. rewrite <- (map_length type_of (m_layers m0)) in *. revert K. generalize (map type_of (m_layers m)) as b. clear. induction (map type_of (m_layers m0)) as [|x a IH]; intros b K; [reflexivity|].
    destruct (K 0) as (_ & Q); [cbn; lia|]. destruct b as [|y b]; [discriminate Q|]. cbn in Q. injection Q as ->. cbn [firstn length]. f_equal. apply IH. intros i Hi. destruct (K (S i)) as (_ & Q'); [cbn; lia|]. auto.
  - intros (rest & E). destruct (Nat.eqb_spec k (length (m_layers m0))) as [|N]; [reflexivity|]. destruct K2 as [|(l0 & Q1 & Q2)]; [easy|].
    assert (Hk : k < length (m_layers m0)) by (apply nth_error_Some; congruence).
    assert (T : nth_error (map type_of (m_layers m)) k = Some (type_of l0)) by (rewrite E, nth_error_app1 by (now rewrite map_length); rewrite nth_error_map, Q1; reflexivity).
    rewrite nth_error_map in T. destruct Q2 as [Q2|(l & Q2 & Q3)]; rewrite Q2 in T; [discriminate T|]. cbn in T. congruence.
Qed.

(** *** What does not hold *)
(** The sizes of each layer fit those of the next *)
Fixpoint fitting (ls : list dlayer) : Prop :=
  match ls with
  | a :: rest => match rest with b :: _ => out_size (fields_of a) = in_size (fields_of b) | [] => True end /\ fitting rest
  | [] => True
  end.
Definition ex_half := DFin false (/ 2).
Definition ex_fc (name : text) (n k : nat) : dlayer := DDense (mkF name [(n, 1, 1)] [(k, 1, 1)]) (repeat ex_half (k * n)) (repeat ex_half k).
Definition ex_act (t name : text) (n : nat) : dlayer := DPlain t (mkF name [(n, 1, 1)] [(n, 1, 1)]).
Definition ex_target : dmodel := mkDM (txt "target") [ex_fc (txt "d") 2 3; ex_act (txt "Relu") (txt "r") 3; ex_fc (txt "e") 3 1].
Definition ex_other : dmodel := mkDM (txt "other") [ex_fc (txt "x") 2 2; ex_act (txt "Tanh") (txt "t") 2; ex_fc (txt "y") 2 1].
Definition ex_short : dmodel := mkDM (txt "short") [ex_fc (txt "d") 2 3; ex_act (txt "Relu") (txt "r") 3].
Lemma ex_ok (F : R -> Prop) : F (/ 2)%R -> model_ok F ex_target /\ model_ok F ex_other /\ model_ok F ex_short.
Proof.
  intros HF. assert (D : forall name n k, n * 1 * 1 = n -> k * 1 * 1 = k -> small n -> small k -> ok_layer (ex_fc name n k) /\ Forall (finite F) (numbers (ex_fc name n k))).
  { intros name n k E1 E2 S1 S2. split.
    - split; [|split; cbn; rewrite repeat_length; nia]. repeat split; try discriminate; repeat constructor; cbn; auto; vm_compute; reflexivity.
    - cbn [numbers ex_fc]. apply Forall_forall. intros x I. apply in_app_iff in I. assert (x = ex_half) as -> by (destruct I as [I|I]; now apply repeat_spec in I). exists false, (/ 2)%R. repeat split; [lra|exact HF]. }
  assert (A : forall t name n, small n -> ok_layer (ex_act t name n) /\ Forall (finite F) (numbers (ex_act t name n))).
  { intros t name n S1. split; [|constructor]. repeat split; try discriminate; repeat constructor; cbn; auto; vm_compute; reflexivity. }
  repeat split; repeat (constructor; [first [apply D; try reflexivity; vm_compute; reflexivity|apply A; vm_compute; reflexivity]|]); constructor.
Qed.
Lemma ex_library : Forall library (m_layers ex_target) /\ Forall library (m_layers ex_other) /\ Forall library (m_layers ex_short).
Proof. repeat split; repeat (constructor; [cbn; auto|]); constructor. Qed.

(** A load that fails does not leave the network as it was. The name and the first layers are
    those of the file; the sizes of the layers of the network do not fit one another any more. *)
Theorem c97_unchanged_refuted : forall F fl, nearest F fl -> F (/ 2)%R -> exists m0 m d m',
  model_ok F m0 /\ model_ok F m /\ fitting (m_layers m0) /\ fitting (m_layers m) /\ dump_model m = Ok d /\
  load_model_st fl m0 d = (m', Throw) /\ m_name m' = m_name m /\ m_name m' <> m_name m0 /\ ~ fitting (m_layers m').
Proof.
  intros F fl Hn HF. destruct (ex_ok F HF) as (O1 & O2 & _). destruct ex_library as (B1 & B2 & _). destruct (c97_saved F fl ex_target ex_other Hn O2 B1 B2) as (d & k & m' & E1 & _ & E2 & E3 & K1 & K2 & K3).
  assert (k = 1) as ->.
  { destruct k as [|[|k]]; [|reflexivity|].
    - destruct K3 as [K3|(l0 & Q1 & Q2)]; [discriminate K3|]. injection Q1 as <-. destruct Q2 as [Q2|(l & Q2 & Q3)]; [discriminate Q2|]. injection Q2 as <-. now contradict Q3.
    - destruct (K1 1) as (l0 & l & l' & Q1 & Q2 & _ & Q3 & _); [lia|]. injection Q1 as <-. injection Q2 as <-. discriminate Q3. }
  exists ex_target, ex_other, d, m'. do 2 (split; [assumption|]). do 2 (split; [cbn; auto|]). split; [exact E1|]. split; [exact E2|]. split; [exact E3|]. split; [rewrite E3; discriminate|].
  destruct (K1 0) as (l0 & l & l' & _ & Q2 & Q3 & _ & Q4 & _); [lia|]. injection Q2 as <-. specialize (K2 1 ltac:(lia)). change (nth_error (m_layers ex_target) 1) with (Some (ex_act (txt "Relu") (txt "r") 3)) in K2.
  destruct (m_layers m') as [|a [|b rest]]; [discriminate Q3|discriminate K2|]. cbn in Q3, K2. injection Q3 as ->. injection K2 as ->. unfold frame in Q4. injection Q4 as _ Q4 _. intros (Q & _). rewrite Q4 in Q. discriminate Q.
Qed.
(** A load that succeeds does not mean that the file is of this network: the layers of the file
    beyond those of the network are ignored. *)
Theorem c97_longer_refuted : forall F fl, nearest F fl -> F (/ 2)%R -> exists m0 m d m',
  model_ok F m0 /\ model_ok F m /\ dump_model m = Ok d /\ load_model_st fl m0 d = (m', Ok tt) /\ length (m_layers m') < length (m_layers m) /\
  exists l, last (m_layers m) l <> l /\ out_size (fields_of (last (m_layers m) l)) <> out_size (fields_of (last (m_layers m') l)).
Proof.
  intros F fl Hn HF. destruct (ex_ok F HF) as (O1 & _ & O2). destruct ex_library as (B1 & _ & B2). destruct (c97_saved F fl ex_short ex_target Hn O1 B2 B1) as (d & k & m' & E1 & _ & E2 & E3 & K1 & K2 & K3).
  assert (k = 2) as ->.
  { destruct K3 as [K3|(l0 & Q1 & Q2)]; [exact K3|]. destruct k as [|[|k]]; [injection Q1 as <-|injection Q1 as <-|destruct k; discriminate Q1]; (destruct Q2 as [Q2|(l & Q2 & Q3)]; [discriminate Q2|]; injection Q2 as <-; now contradict Q3). }
  exists ex_short, ex_target, d, m'. do 2 (split; [assumption|]). split; [exact E1|]. split; [exact E2|].
  destruct (K1 1) as (l0 & l & l' & _ & Q2 & Q3 & _ & Q4 & _); [lia|]. injection Q2 as <-. specialize (K2 2 ltac:(lia)). change (nth_error (m_layers ex_short) 2) with (@None dlayer) in K2.
  destruct (m_layers m') as [|a [|b [|c rest]]]; [discriminate Q3|discriminate Q3| |discriminate K2]. cbn in Q3. injection Q3 as ->. split; [cbn; lia|].
  exists (ex_act [] [] 0). cbn [last m_layers ex_target]. split; [discriminate|]. unfold frame in Q4. injection Q4 as _ Q4 _. rewrite Q4. discriminate.
Qed.

(** *** Cases *)
Example c97_met : exists F fl, nearest F fl /\ F (/ 2)%R /\ model_ok F ex_other /\ Forall library (m_layers ex_target) /\ Forall library (m_layers ex_other) /\
  m_layers ex_other <> [] /\ ~ In quote (m_name ex_other) /\ Forall file_layer (m_layers ex_other).
Proof.
  exists (fun _ => True), (fun y => y). split; [exact id_nearest|]. split; [exact Logic.I|]. split; [now apply ex_ok|]. split; [apply ex_library|]. split; [apply ex_library|]. split; [discriminate|]. split; [vm_compute; intuition discriminate|].
  repeat (constructor; [repeat split; vm_compute; try lia; try exact Logic.I; intuition discriminate|]). constructor.
Qed.
(** A file cut off within the weights of a layer: the shape and a part of the weights are new. *)
Definition ex_cut : json := JDict [(txt "layers", JList [JDict [
  (txt "input_shape", JList [list_size [1; 1; 1]]); (txt "name", leaf_text (txt "new")); (txt "output_shape", JList [list_size [2; 1; 1]]); (txt "type", leaf_text (txt "Dense"));
  (txt "weights", JList [JList [JLeaf (txt "7") TInt]])]]); (txt "name", leaf_text (txt "cut"))].
Example c97_cut : exists m' l', load_model_st (fun y => y) (mkDM (txt "old") [ex_fc (txt "d") 1 2; ex_act (txt "Relu") (txt "r") 2]) ex_cut = (m', Throw) /\
  m' = mkDM (txt "cut") [l'; ex_act (txt "Relu") (txt "r") 2] /\ f_name (fields_of l') = txt "new" /\ numbers l' = [DFin false 7; ex_half; ex_half; ex_half].
Proof.
  exists (mkDM (txt "cut") [DDense (mkF (txt "new") [(1, 1, 1)] [(2, 1, 1)]) [DFin false (IZR 7 * powerRZ 10 (0 - Z.of_nat 0)); ex_half] [ex_half; ex_half]; ex_act (txt "Relu") (txt "r") 2]). eexists.
  split; [reflexivity|]. split; [reflexivity|]. split; [reflexivity|]. cbn [numbers app]. repeat f_equal. cbn. lra.
Qed.

Print Assumptions c97_any.
Print Assumptions c97_saved.
Print Assumptions c97_accepts.
Print Assumptions c97_unchanged_refuted.
Print Assumptions c97_longer_refuted.
