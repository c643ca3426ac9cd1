(** C43: saving a layer or a model and loading it. *)
From Coq Require Import Ascii String Reals Lra Sorted.
From Verif Require Import Base TypeModel PropTypes StreamModel JsonModel PropJson DumpModel.
Local Open Scope list_scope.
Local Open Scope nat_scope.
Local Notation length := List.length.
Local Notation concat := List.concat.

(** *** Rounding to the nearest integer *)
Lemma up_bounds y : (IZR (up y - 1) <= y < IZR (up y - 1) + 1)%R.
Proof. destruct (archimed y) as (A & B). rewrite minus_IZR. lra. Qed.
Lemma rne_half y : (Rabs (y - IZR (rne y)) <= / 2)%R.
Proof.
  unfold rne. cbv zeta. pose proof (up_bounds y) as B. set (f := (up y - 1)%Z) in *. destruct (total_order_T (y - IZR f) (/ 2)) as [[L|E]|G].
  - rewrite Rabs_right by lra. lra.
  - destruct (Z.even f); [rewrite Rabs_right by lra; lra|]. rewrite plus_IZR. rewrite Rabs_left1 by lra. lra.
  - rewrite plus_IZR. rewrite Rabs_left1 by lra. lra.
Qed.
Lemma IZR_lt_1 a b : (IZR a < IZR b + 1)%R -> (a <= b)%Z.
Proof. intros H. apply Zlt_succ_le. apply lt_IZR. rewrite succ_IZR. lra. Qed.
(** The rounding is determined by the distance. *)
Lemma rne_unique y k : (Rabs (y - IZR k) < / 2 \/ (Rabs (y - IZR k) <= / 2 /\ Z.even k = true))%R -> rne y = k.
Proof.
  intros H. pose proof (up_bounds y) as B. set (f := (up y - 1)%Z) in *.
  assert (Q : (k = f \/ k = f + 1)%Z).
  { assert (H' : (Rabs (y - IZR k) <= / 2)%R) by (destruct H; lra).
    assert (H2 : (- / 2 <= y - IZR k <= / 2)%R) by (clear H; split_Rabs; lra). 
    assert (f <= k)%Z by (apply IZR_lt_1; lra). assert (k <= f + 1)%Z; [|lia]. apply IZR_lt_1. rewrite plus_IZR. lra. }
  unfold rne. cbv zeta. change (up y - 1)%Z with f. destruct (total_order_T (y - IZR f) (/ 2)) as [[L|E]|G]; destruct Q as [->| ->]; try reflexivity.
  - exfalso. rewrite plus_IZR in H. destruct H as [H|[H _]]; split_Rabs; lra.
  - destruct H as [H|[_ H]]; [split_Rabs; lra|]. now rewrite H.
  - rewrite plus_IZR in H. destruct H as [H|[_ H]]; [split_Rabs; lra|]. rewrite Z.add_1_r, Z.even_succ, <- Z.negb_even in H. now destruct (Z.even f).
  - exfalso. destruct H as [H|[H _]]; split_Rabs; lra.
Qed.
Lemma rne_nonneg y : (0 <= y)%R -> (0 <= rne y)%Z.
Proof. intros H. pose proof (rne_half y) as B. apply IZR_lt_1. split_Rabs; lra. Qed.
Lemma rne_IZR k : rne (IZR k) = k.
Proof. apply rne_unique. left. rewrite Rminus_diag_eq by reflexivity. rewrite Rabs_R0. lra. Qed.

(** *** Decimal texts *)
Lemma digit_in c : is_digit c -> range "0" "9" c = true. Proof. apply digit_range. Qed.
Lemma take_digits_app u w : all_digits u -> (forall c t, w = c :: t -> range "0" "9" c = false) -> take_digits (u ++ w) = (u, w).
Proof.
  intros A N. induction A as [|c u Hc A IH]; cbn [app].
  - destruct w as [|c t]; [reflexivity|]. cbn [take_digits]. now rewrite (N c t eq_refl).
  - cbn [take_digits]. rewrite (digit_in c Hc), IH. reflexivity.
Qed.
Lemma take_digits_all u : all_digits u -> take_digits u = (u, []).
Proof. intros A. rewrite <- (app_nil_r u) at 1. apply take_digits_app; [exact A|discriminate]. Qed.
Lemma dec_value_digits u : dec_value u = digits_value u. Proof. reflexivity. Qed.
Lemma digits_value_cat u w : digits_value (u ++ w) = (digits_value u * 10 ^ Z.of_nat (length w) + digits_value w)%Z.
Proof.
  induction w as [|c w IH] using rev_ind; [cbn [length]; rewrite app_nil_r; unfold digits_value at 3; cbn [fold_left]; lia|].
  rewrite app_assoc, !digits_value_app, IH, app_length. cbn [length]. rewrite Nat2Z.inj_add, Z.pow_add_r by lia. change (10 ^ Z.of_nat 1)%Z with 10%Z. ring.
Qed.
Lemma pad_spec k : forall n, (0 <= n < 10 ^ Z.of_nat k)%Z -> let s := rev (pad_rev k n) in all_digits s /\ digits_value s = n /\ length s = k.
Proof.
  induction k as [|k IH]; intros n Hn.
  - cbn in Hn. cbn. split; [constructor|]. split; [lia|reflexivity].
  - cbn [pad_rev rev]. assert (M : (0 <= n mod 10 < 10)%Z) by (apply Z.mod_pos_bound; lia).
    destruct (digit_is (Z.to_nat (n mod 10))) as (D1 & D2 & _); [lia|].
    destruct (IH (n / 10)%Z) as (A & B & C).
    { rewrite Nat2Z.inj_succ, Z.pow_succ_r in Hn by lia. split; [apply Z.div_pos; lia|]. apply Z.div_lt_upper_bound; lia. }
    split; [apply Forall_app; split; [exact A|constructor; [exact D1|constructor]]|].
    split; [rewrite digits_value_app, B, D2; pose proof (Z.div_mod n 10); lia|]. rewrite app_length, C. cbn. lia.
Qed.
Definition ip_of (n : Z) : text := print_nonneg (n / 10 ^ 6).
Definition fp_of (n : Z) : text := rev (pad_rev 6 (n mod 10 ^ 6)).
Lemma micros_parts n : (0 <= n)%Z ->
  micros n = ip_of n ++ "."%char :: fp_of n /\ all_digits (ip_of n) /\ ip_of n <> [] /\ all_digits (fp_of n) /\ length (fp_of n) = 6 /\ digits_value (ip_of n ++ fp_of n) = n.
Proof.
  intros Hn. assert (P : (0 <= n / 10 ^ 6)%Z) by (apply Z.div_pos; lia). destruct (print_nonneg_spec _ P) as (A & B & C).
  destruct (pad_spec 6 (n mod 10 ^ 6)%Z) as (D & E & F); [change (10 ^ Z.of_nat 6)%Z with (10 ^ 6)%Z; apply Z.mod_pos_bound; lia|].
  split; [reflexivity|]. split; [exact A|]. split; [unfold ip_of; destruct C as [C|(? & ? & C & _)]; rewrite C; discriminate|]. split; [exact D|]. split; [exact F|].
  unfold ip_of, fp_of. rewrite digits_value_cat, B, E, F. change (10 ^ Z.of_nat 6)%Z with (10 ^ 6)%Z. pose proof (Z.div_mod n (10 ^ 6)). lia.
Qed.
Lemma digit_not_space c : is_digit c -> range "009" "013" c || Ascii.eqb c " " = false /\ Ascii.eqb c "-" = false /\ Ascii.eqb c "+" = false.
Proof. intros I. unfold is_digit in I. cbn in I. repeat (destruct I as [<-|I]; [vm_compute; auto|]). easy. Qed.
Definition sgn (b : bool) : text := if b then txt "-" else [].
Lemma skip_number b u w : all_digits u -> u <> [] -> skip_space (sgn b ++ u ++ w) = sgn b ++ u ++ w.
Proof.
  intros A N. destruct b; cbn [sgn app txt list_ascii_of_string]; [reflexivity|]. destruct u as [|c u]; [easy|]. inversion A; subst. cbn [app skip_space].
  destruct (digit_not_space c) as (E & _); [assumption|]. now rewrite E.
Qed.
Lemma sign_number b u w : all_digits u -> u <> [] -> take_sign (sgn b ++ u ++ w) = (b, u ++ w).
Proof.
  intros A N. destruct b; cbn [sgn app txt list_ascii_of_string]; [reflexivity|]. destruct u as [|c u]; [easy|]. inversion A; subst. cbn [app take_sign].
  destruct (digit_not_space c) as (_ & E & F); [assumption|]. now rewrite E, F.
Qed.
Lemma number_not_nil b u w : u <> [] -> exists c t, sgn b ++ u ++ w = c :: t.
Proof. intros N. destruct b; cbn; eauto. destruct u; [easy|]. cbn. eauto. Qed.

(** The value read from a printed number *)
Lemma read_micros fl neg n : (0 <= n)%Z ->
  read_double fl (sgn neg ++ micros n) = Ok (DFin neg (fl (IZR n * powerRZ 10 (-6))%R)).
Proof.
  intros Hn. destruct (micros_parts n Hn) as (E & A & N & B & L & V). rewrite E. set (w := "."%char :: fp_of n).
  unfold read_double. rewrite skip_number by assumption. destruct (number_not_nil neg (ip_of n) w N) as (c & t & Q). rewrite Q, <- Q, sign_number by assumption.
  rewrite take_digits_app; [|exact A|]. 2:{ unfold w. intros c' t' [= <- <-]. reflexivity. }
  unfold w. cbn [Ascii.eqb Bool.eqb]. rewrite take_digits_all by exact B.
  destruct (ip_of n ++ fp_of n) as [|c' t'] eqn:Q'; [apply app_eq_nil in Q'; tauto|]. rewrite dec_value_digits, V, L. reflexivity.
Qed.
Lemma read_size_print n : (Z.of_nat n < 2 ^ 64)%Z -> read_size (print_int (Z.of_nat n)) = Ok n.
Proof.
  intros H. unfold print_int. destruct (Z.ltb_spec (Z.of_nat n) 0) as [?|_]; [lia|].
  destruct (print_nonneg_spec (Z.of_nat n)) as (A & B & C); [lia|]. set (s := print_nonneg (Z.of_nat n)) in *.
  assert (N : s <> []) by (destruct C as [->|(? & ? & -> & _)]; discriminate).
  unfold read_size. pose proof (skip_number false s [] A N) as K. pose proof (sign_number false s [] A N) as G. cbn [sgn app] in K, G. rewrite app_nil_r in K, G. rewrite K.
  destruct s as [|c t] eqn:Q; [easy|]. rewrite <- Q in *. rewrite G. rewrite take_digits_all by exact A. cbn [fst]. rewrite dec_value_digits, B.
  destruct (Z.leb_spec (2 ^ 64) (Z.of_nat n)); [lia|]. now rewrite Nat2Z.id.
Qed.
Lemma read_int_print z : (- 2 ^ 31 <= z < 2 ^ 31)%Z -> read_int (print_int z) = Ok z.
Proof.
  intros H. assert (P : print_int z = sgn (z <? 0)%Z ++ print_nonneg (Z.abs z) ++ []).
  { rewrite app_nil_r. unfold print_int, sgn. destruct (Z.ltb_spec z 0); [rewrite Z.abs_neq by lia; reflexivity|rewrite Z.abs_eq by lia; reflexivity]. }
  destruct (print_nonneg_spec (Z.abs z)) as (A & B & C); [lia|].
  assert (N : print_nonneg (Z.abs z) <> []) by (destruct C as [->|(? & ? & -> & _)]; discriminate).
  rewrite P. unfold read_int. rewrite skip_number by assumption. destruct (number_not_nil (z <? 0)%Z (print_nonneg (Z.abs z)) [] N) as (c & t & Q). rewrite Q, <- Q, sign_number by assumption.
  rewrite app_nil_r, take_digits_all by exact A. cbn [fst]. rewrite dec_value_digits, B. f_equal.
  destruct (Z.ltb_spec z 0); [rewrite Z.abs_neq by lia|rewrite Z.abs_eq by lia]; lia.
Qed.
Lemma print_double_type neg m : (0 <= m)%R -> parse_type (print_double (DFin neg m)) = TFloat.
Proof.
  intros H. assert (Hn : (0 <= rne (m * 10 ^ 6))%Z) by (apply rne_nonneg; apply Rmult_le_pos; [exact H|apply pow_le; lra]).
  cbn [print_double]. change (if neg then txt "-" else []) with (sgn neg). destruct (micros_parts _ Hn) as (E & A & N & B & L & V).
  set (n := rne (m * 10 ^ 6)) in *. rewrite E. apply c46_float. split.
  - exists (sgn neg), (ip_of n), (txt "."), (fp_of n), []. split; [now rewrite app_nil_r|]. split; [unfold is_sign, sgn; destruct neg; auto|]. split; [exact A|].
    split; [now right|]. split; [exact B|]. split; [intros Q; rewrite Q in L; discriminate|]. now left.
  - intros (s & d & Q & S1 & D). assert (I : In "."%char (s ++ d)) by (rewrite <- Q; apply in_or_app; right; apply in_or_app; right; now left).
    apply in_app_or in I as [I|I].
    + destruct S1 as [->|[->| ->]]; cbn in I; intuition discriminate.
    + assert (J : all_digits d) by (destruct D as [->|(c & ds & -> & K & _ & J)]; constructor; auto; try constructor; cbn; auto).
      unfold all_digits in J. rewrite Forall_forall in J. apply J in I. unfold is_digit in I. cbn in I. intuition discriminate.
Qed.

(** *** One number *)
(** [F] are the magnitudes of doubles, [fl] rounds to a nearest one. *)
Definition nearest (F : R -> Prop) (fl : R -> R) : Prop :=
  forall y, (0 <= y)%R -> F (fl y) /\ (0 <= fl y)%R /\ forall x, F x -> (0 <= x)%R -> (Rabs (fl y - y) <= Rabs (x - y))%R.
Definition finite (F : R -> Prop) (x : dbl) : Prop := exists neg m, x = DFin neg m /\ (0 <= m)%R /\ F m.
Definition close (eps : R) (x y : dbl) : Prop :=
  match x, y with DFin s a, DFin t b => s = t /\ (Rabs (a - b) <= eps)%R | _, _ => False end.
(** A whole number of millionths *)
Definition six_decimals (x : dbl) : Prop :=
  match x with DFin _ m => exists k, m = (IZR k / 10 ^ 6)%R | _ => False end.

Definition trip (fl : R -> R) (x : dbl) : dbl :=
  match x with DFin neg m => DFin neg (fl (IZR (rne (m * 10 ^ 6)) * powerRZ 10 (-6))%R) | _ => DFin false 0 end.
Lemma trip_read fl F x : finite F x -> read_double fl (print_double x) = Ok (trip fl x).
Proof.
  intros (neg & m & -> & H & _). cbn [print_double trip]. change (if neg then txt "-" else []) with (sgn neg). apply read_micros.
  apply rne_nonneg. apply Rmult_le_pos; [exact H|apply pow_le; lra].
Qed.
Lemma micro_unit k : (IZR k * powerRZ 10 (-6) = IZR k / 10 ^ 6)%R.
Proof. unfold Rdiv. f_equal. Qed.
Lemma E6 : (10 ^ 6 = 1000000)%R. Proof. ring. Qed.
Lemma half_micro m : (Rabs (m - IZR (rne (m * 10 ^ 6)) / 10 ^ 6) <= / 2 / 10 ^ 6)%R.
Proof.
  pose proof (rne_half (m * 10 ^ 6)) as H. set (k := IZR (rne _)) in *. rewrite E6 in *. replace (m - k / 1000000)%R with ((m * 1000000 - k) / 1000000)%R by field.
  unfold Rdiv. rewrite Rabs_mult, (Rabs_right (/ 1000000)) by lra. apply Rmult_le_compat_r; lra.
Qed.
Lemma trip_close fl F x : nearest F fl -> finite F x -> close (1 / 10 ^ 6) x (trip fl x).
Proof.
  intros Hn (neg & m & -> & H & HF). cbn [trip close]. split; [reflexivity|]. rewrite micro_unit. pose proof (half_micro m) as B.
  set (y := (IZR (rne (m * 10 ^ 6)) / 10 ^ 6)%R) in *. assert (Hy : (0 <= y)%R).
  { unfold y. apply Rmult_le_pos; [|left; apply Rinv_0_lt_compat; apply pow_lt; lra]. apply (IZR_le 0). apply rne_nonneg. apply Rmult_le_pos; [exact H|apply pow_le; lra]. }
  destruct (Hn y Hy) as (_ & _ & N). specialize (N m HF H). rewrite E6 in *. split_Rabs; lra.
Qed.
Lemma trip_close_exact F x : finite F x -> close (/ 2 / 10 ^ 6) x (trip (fun y => y) x).
Proof. intros (neg & m & -> & H & HF). cbn [trip close]. split; [reflexivity|]. rewrite micro_unit. apply half_micro. Qed.
Lemma trip_finite fl F x : nearest F fl -> finite F x -> finite F (trip fl x).
Proof.
  intros Hn (neg & m & -> & H & HF). cbn [trip]. rewrite micro_unit. eexists. eexists. split; [reflexivity|]. set (y := (IZR (rne (m * 10 ^ 6)) / 10 ^ 6)%R).
  assert (Hy : (0 <= y)%R). { unfold y. apply Rmult_le_pos; [|left; apply Rinv_0_lt_compat; apply pow_lt; lra]. apply (IZR_le 0). apply rne_nonneg. apply Rmult_le_pos; [exact H|apply pow_le; lra]. }
  destruct (Hn y Hy) as (A & B & _). auto.
Qed.
(** Printing what was read gives the same text. *)
Lemma trip_print fl F x : nearest F fl -> finite F x -> print_double (trip fl x) = print_double x.
Proof.
  intros Hn (neg & m & -> & H & HF). cbn [trip print_double]. f_equal. f_equal. rewrite micro_unit. pose proof (rne_half (m * 10 ^ 6)) as B0. set (n := rne (m * 10 ^ 6)) in *.
  set (y := (IZR n / 10 ^ 6)%R). assert (N0 : (0 <= n)%Z) by (apply rne_nonneg; apply Rmult_le_pos; [exact H|apply pow_le; lra]).
  assert (Hy : (0 <= y)%R) by (unfold y; apply Rmult_le_pos; [apply (IZR_le 0); exact N0|left; apply Rinv_0_lt_compat; apply pow_lt; lra]).
  destruct (Hn y Hy) as (_ & _ & N). specialize (N m HF H).
  assert (D : (Rabs (fl y * 10 ^ 6 - IZR n) <= Rabs (m * 10 ^ 6 - IZR n))%R).
  { replace (fl y * 10 ^ 6 - IZR n)%R with ((fl y - y) * 10 ^ 6)%R by (unfold y; field; apply pow_nonzero; lra).
    replace (m * 10 ^ 6 - IZR n)%R with ((m - y) * 10 ^ 6)%R by (unfold y; field; apply pow_nonzero; lra).
    rewrite !Rabs_mult. apply Rmult_le_compat_r; [apply Rabs_pos|exact N]. }
  apply rne_unique. destruct (Rlt_le_dec (Rabs (fl y * 10 ^ 6 - IZR n)) (/ 2)) as [L|L]; [now left|right].
  split; [lra|]. assert (T : (Rabs (m * 10 ^ 6 - IZR n) = / 2)%R) by lra. clear - T. revert T. unfold n, rne. cbv zeta. pose proof (up_bounds (m * 10 ^ 6)) as B. set (f := (up _ - 1)%Z) in *.
  destruct (total_order_T (m * 10 ^ 6 - IZR f) (/ 2)) as [[L|E]|G]; intros T.
  - exfalso. split_Rabs; lra.
  - destruct (Z.even f) eqn:Ev; [exact Ev|]. now rewrite Z.add_1_r, Z.even_succ, <- Z.negb_even, Ev.
  - exfalso. rewrite plus_IZR in T. split_Rabs; lra.
Qed.
Lemma trip_exact_iff F x : finite F x -> (trip (fun y => y) x = x <-> six_decimals x).
Proof.
  intros (neg & m & -> & H & HF). cbn [trip six_decimals]. rewrite micro_unit. split.
  - intros [= E]. eexists. symmetry. exact E.
  - intros (k & ->). f_equal. replace (IZR k / 10 ^ 6 * 10 ^ 6)%R with (IZR k) by (field; lra). now rewrite rne_IZR.
Qed.

(** *** Loops that append and loops that store *)
Definition jl (l : list json) : json := match l with [] => JNull | _ => JList l end.
Lemma append_jl l x : append (jl l) x = Ok (jl (l ++ [x])).
Proof. destruct l; reflexivity. Qed.
Lemma appends_ok n f g : (forall i, i < n -> f i = Ok (g i)) -> appends n f = Ok (jl (tab n g)).
Proof.
  intros H. unfold appends. destruct (for_inv (fun k s => s = jl (tab k g)) n (fun i acc => x <- f i ;; append acc x) JNull) as (s & E & ->); [reflexivity| |exact E].
  intros k s Hk ->. rewrite (H k Hk). cbn [bind]. rewrite append_jl. eexists. split; [reflexivity|]. now rewrite tab_S.
Qed.
Lemma at_idx_jl n g i : i < n -> at_idx (jl (tab n g)) i = Ok (g i).
Proof.
  intros H. assert (E : jl (tab n g) = JList (tab n g)) by (destruct n; [lia|rewrite tab_cons; reflexivity]). rewrite E. cbn [at_idx].
  rewrite (nth_error_nth' _ JNull) by now rewrite tab_length. now rewrite nth_tab.
Qed.

(** [act] writes the elements of [tgt] between [lo] and [hi] and nothing else. *)
Definition d0 : dbl := DFin false 0.
Definition fills (N lo hi : nat) (tgt : list dbl) (act : list dbl -> res (list dbl)) : Prop :=
  forall d, length d = N -> exists d', act d = Ok d' /\ length d' = N /\
    (forall q, lo <= q < hi -> nth q d' d0 = nth q tgt d0) /\ (forall q, q < lo \/ hi <= q -> nth q d' d0 = nth q d d0).
Lemma fills_cell N lo tgt act : lo < N -> (forall d, length d = N -> act d = wr d lo (nth lo tgt d0)) -> fills N lo (Datatypes.S lo) tgt act.
Proof.
  intros H E d Hd. rewrite (E d Hd), wr_ok by lia. eexists. split; [reflexivity|]. rewrite upd_length. split; [exact Hd|]. split.
  - intros q Hq. replace q with lo by lia. apply nth_upd_eq. lia.
  - intros q Hq. apply nth_upd_neq. lia.
Qed.
Lemma fills_for N lo n m tgt body : (forall i, i < n -> fills N (lo + i * m) (lo + i * m + m) tgt (body i)) -> fills N lo (lo + n * m) tgt (fun d => for_ n body d).
Proof.
  intros H d Hd.
  destruct (for_inv (fun k s => length s = N /\ (forall q, lo <= q < lo + k * m -> nth q s d0 = nth q tgt d0) /\ (forall q, q < lo \/ lo + k * m <= q -> nth q s d0 = nth q d d0)) n body d) as (s & E & A & B & C).
  - split; [exact Hd|]. split; [intros q Hq; lia|reflexivity].
  - intros k s Hk (A & B & C). destruct (H k Hk s A) as (s' & E & A' & B' & C'). exists s'. split; [exact E|]. split; [exact A'|]. split.
    + intros q Hq. destruct (Nat.lt_ge_cases q (lo + k * m)); [rewrite C' by lia; apply B; lia|apply B'; lia].
    + intros q Hq. rewrite C' by lia. apply C. lia.
  - exists s. auto.
Qed.
Lemma fills_done N tgt act d : fills N 0 N tgt act -> length tgt = N -> length d = N -> act d = Ok tgt.
Proof.
  intros H L Hd. destruct (H d Hd) as (d' & E & A & B & _). rewrite E. f_equal. apply (list_ext_nth d0); [lia|]. intros i Hi. apply B. lia.
Qed.
Lemma fills_at N lo hi lo' hi' tgt f : lo = lo' -> hi = hi' -> fills N lo hi tgt f -> fills N lo' hi' tgt f.
Proof. now intros -> ->. Qed.

(** *** The documents *)
Definition small (n : nat) : Prop := (Z.of_nat n < 2 ^ 64)%Z.
Definition small2 (p : nat * nat) : Prop := small (fst p) /\ small (snd p).
Definition small3 (s : shape3) : Prop := let '(h, w, c) := s in small h /\ small w /\ small c.
Definition in_size (f : fields) : nat := size3 (hd (0, 0, 0) (f_in f)).
Definition out_size (f : fields) : nat := size3 (hd (0, 0, 0) (f_out f)).
Definition in_channels (f : fields) : nat := snd (hd (0, 0, 0) (f_in f)).
Definition ok_fields (f : fields) : Prop := f_in f <> [] /\ f_out f <> [] /\ Forall small3 (f_in f) /\ Forall small3 (f_out f).
(** Sizes of the vectors as the constructors make them; numbers of C++ types. *)
Definition ok_layer (l : dlayer) : Prop :=
  ok_fields (fields_of l) /\
  match l with
  | DDense f w b => length w = out_size f * in_size f /\ length b = out_size f
  | DConv f k s p n w b => length w = fst k * snd k * in_channels f * n /\ length b = n /\ small2 k /\ small2 s /\ small2 p /\ small n
  | DPool _ _ k s => small2 k /\ small2 s
  | DRec f a h s w1 w2 w3 b1 b2 =>
      length w1 = h * in_size f /\ length w2 = h * h /\ length w3 = out_size f * h /\ length b1 = h /\ length b2 = out_size f /\
      small h /\ small s /\ (- 2 ^ 31 <= a < 2 ^ 31)%Z
  | _ => True
  end.
(** The numbers saved (the alpha of an ELU layer is not one of them) *)
Definition numbers (l : dlayer) : list dbl :=
  match l with
  | DPlain _ _ | DElu _ _ | DPool _ _ _ _ => []
  | DDense _ w b | DConv _ _ _ _ _ w b => w ++ b
  | DDrop _ x | DMse _ x => [x]
  | DRec _ _ _ _ w1 w2 w3 b1 b2 => w1 ++ w2 ++ w3 ++ b1 ++ b2
  end.
(** Everything saved except the numbers, and how many numbers go where *)
Definition frame (l : dlayer) : text * fields * list Z :=
  (type_of l, fields_of l,
   match l with
   | DDense _ w b => [Z.of_nat (length w); Z.of_nat (length b)]
   | DConv _ (k1, k2) (s1, s2) (p1, p2) n w b => map Z.of_nat [k1; k2; s1; s2; p1; p2; n; length w; length b]
   | DPool _ _ (k1, k2) (s1, s2) => map Z.of_nat [k1; k2; s1; s2]
   | DRec _ a h s w1 w2 w3 b1 b2 => a :: map Z.of_nat [h; s; length w1; length w2; length w3; length b1; length b2]
   | _ => []
   end).
Definition same_class (l0 l : dlayer) : Prop :=
  match l0, l with
  | DPlain t _, DPlain t' _ | DPool t _ _ _, DPool t' _ _ _ => t = t'
  | DElu _ _, DElu _ _ | DDense _ _ _, DDense _ _ _ | DConv _ _ _ _ _ _ _, DConv _ _ _ _ _ _ _ | DDrop _ _, DDrop _ _ | DMse _ _, DMse _ _
  | DRec _ _ _ _ _ _ _ _ _, DRec _ _ _ _ _ _ _ _ _ => True
  | _, _ => False
  end.

Definition num (w : list dbl) (i : nat) : json := leaf_double (nth i w d0).
Definition vector_doc (n : nat) (b : list dbl) : json := jl (tab n (num b)).
Definition matrix_doc (r c : nat) (w : list dbl) : json := jl (tab r (fun i => jl (tab c (fun j => num w (i * c + j))))).
Definition tensor_doc (kh kw ch nf : nat) (w : list dbl) : json :=
  jl (tab kh (fun r => jl (tab kw (fun c => jl (tab ch (fun k => jl (tab nf (fun i => num w (r * kw * ch * nf + c * ch * nf + k * nf + i))))))))).
Definition shapes_doc (l : list shape3) : json := jl (map (fun s => let '(h, w, c) := s in list_size [h; w; c]) l).
Definition others_of (l : dlayer) : option json :=
  match l with
  | DConv _ k s p n _ _ => Some (JDict [(txt "kernel_size", list_size [fst k; snd k]); (txt "n_filters", leaf_size n); (txt "padding", list_size [fst p; snd p]); (txt "stride", list_size [fst s; snd s])])
  | DPool _ _ k s => Some (JDict [(txt "kernel_size", list_size [fst k; snd k]); (txt "stride", list_size [fst s; snd s])])
  | DDrop _ x => Some (JDict [(txt "drop_probability", leaf_double x)])
  | DMse _ x => Some (JDict [(txt "loss_tolerance", leaf_double x)])
  | DRec _ a h s _ _ _ _ _ => Some (JDict [(txt "hidden_activation", leaf_int a); (txt "hidden_size", leaf_size h); (txt "time_steps", leaf_size s)])
  | _ => None
  end.
Definition biases_of (l : dlayer) : option json :=
  match l with
  | DDense f w b => Some (vector_doc (out_size f) b)
  | DConv f k s p n w b => Some (vector_doc n b)
  | DRec f a h s w1 w2 w3 b1 b2 => Some (JList [vector_doc h b1; vector_doc (out_size f) b2])
  | _ => None
  end.
Definition weights_of (l : dlayer) : option json :=
  match l with
  | DDense f w b => Some (matrix_doc (out_size f) (in_size f) w)
  | DConv f k s p n w b => Some (tensor_doc (fst k) (snd k) (in_channels f) n w)
  | DRec f a h s w1 w2 w3 b1 b2 => Some (JList [matrix_doc h (in_size f) w1; matrix_doc h h w2; matrix_doc (out_size f) h w3])
  | _ => None
  end.
Definition opt (k : text) (o : option json) : list (text * json) := match o with Some x => [(k, x)] | None => [] end.
Definition doc_map (l : dlayer) : list (text * json) :=
  opt (txt "biases") (biases_of l) ++ (txt "input_shape", shapes_doc (f_in (fields_of l))) :: (txt "name", leaf_text (f_name (fields_of l))) ::
  opt (txt "others") (others_of l) ++ (txt "output_shape", shapes_doc (f_out (fields_of l))) :: (txt "type", leaf_text (type_of l)) :: opt (txt "weights") (weights_of l).
Definition doc_of (l : dlayer) : json := JDict (doc_map l).

Lemma dump_shapes_ok l : dump_shapes l = Ok (shapes_doc l).
Proof.
  unfold dump_shapes, shapes_doc. set (g := fun s : shape3 => let '(h, w, c) := s in list_size [h; w; c]).
  assert (H : forall a, foldM (fun acc (s : shape3) => let '(h, w, c) := s in append acc (list_size [h; w; c])) l (jl a) = Ok (jl (a ++ map g l))).
  { induction l as [|((h, w), c) l IH]; intros a; [now rewrite app_nil_r|]. cbn [foldM]. rewrite append_jl. cbn [bind]. rewrite IH, <- app_assoc. reflexivity. }
  exact (H []).
Qed.
Lemma as_size_leaf n : small n -> as_size (leaf_size n) = Ok n.
Proof. apply read_size_print. Qed.
Lemma load_shapes_ok l : Forall small3 l -> load_shapes (shapes_doc l) = Ok l.
Proof.
  intros H. destruct l as [|s0 l0]; [reflexivity|]. set (l := s0 :: l0) in *. set (g := fun s : shape3 => let '(h, w, c) := s in list_size [h; w; c]).
  change (shapes_doc l) with (JList (map g l)). unfold load_shapes. cbn [jsize]. rewrite map_length.
  destruct (for_inv (fun k s => s = firstn k l) (length l) (fun i acc =>
    s <- sub_idx (JList (map g l)) i ;; h <- (x <- sub_idx s 0 ;; as_size x) ;; w <- (x <- sub_idx s 1 ;; as_size x) ;; c <- (x <- sub_idx s 2 ;; as_size x) ;; Ok (acc ++ [(h, w, c)])) []) as (s & Q & ->);
    [reflexivity| |etransitivity; [exact Q|]; f_equal; apply firstn_all].
  intros k s Hk ->. cbn [at_idx]. rewrite (nth_error_nth' _ (g (0, 0, 0))) by now rewrite map_length. cbn [bind]. rewrite map_nth.
  destruct (nth k l (0, 0, 0)) as ((h, w), c) eqn:Ek. unfold g. cbn [at_idx list_size map nth_error bind].
  assert (S3 : small3 (h, w, c)) by (rewrite <- Ek; rewrite Forall_forall in H; apply H; now apply nth_In). destruct S3 as (S1 & S2 & S3).
  rewrite !as_size_leaf by assumption. cbn [bind]. eexists. split; [reflexivity|]. rewrite <- Ek. symmetry.
  clear - Hk. revert k Hk. generalize l. clear l. induction l as [|x l IH]; intros [|k] Hk; cbn in *; try lia; [reflexivity|]. f_equal. apply IH. lia.
Qed.
Lemma dump_vector_ok n b : length b = n -> dump_vector n b = Ok (vector_doc n b).
Proof. intros H. apply appends_ok. intros i Hi. rewrite (rd_nth b i d0) by lia. reflexivity. Qed.
Lemma dump_matrix_ok r c w : length w = r * c -> dump_matrix r c w = Ok (matrix_doc r c w).
Proof.
  intros H. apply appends_ok. intros i Hi. apply appends_ok. intros j Hj. rewrite (rd_nth w _ d0) by nia. reflexivity.
Qed.
Lemma size0_in f : ok_fields f -> size0 (f_in f) = Ok (in_size f) /\ channels0 (f_in f) = Ok (in_channels f).
Proof. intros (A & _). unfold in_size, in_channels. destruct (f_in f) as [|((h, w), c) l]; [easy|]. split; reflexivity. Qed.
Lemma size0_out f : ok_fields f -> size0 (f_out f) = Ok (out_size f).
Proof. intros (_ & A & _). unfold out_size. destruct (f_out f) as [|((h, w), c) l]; [easy|]. reflexivity. Qed.
Definition base_map (t : text) (f : fields) : list (text * json) :=
  [(txt "input_shape", shapes_doc (f_in f)); (txt "name", leaf_text (f_name f)); (txt "output_shape", shapes_doc (f_out f)); (txt "type", leaf_text t)].
Lemma dump_fields_ok t f : dump_fields t f = Ok (JDict (base_map t f)).
Proof.
  unfold dump_fields, base_map. rewrite !dump_shapes_ok. generalize (leaf_text t), (leaf_text (f_name f)), (shapes_doc (f_in f)), (shapes_doc (f_out f)). intros a b c e. reflexivity.
Qed.
Lemma idx4 kh kw ch n r c q i : r < kh -> c < kw -> q < ch -> i < n -> r * kw * ch * n + c * ch * n + q * n + i < kh * kw * ch * n.
Proof.
  intros Hr Hc Hq Hi.
  pose proof (Nat.mul_le_mono_r (Datatypes.S q) ch n Hq) as A. pose proof (Nat.mul_le_mono_r (Datatypes.S c) kw (ch * n) Hc) as B.
  pose proof (Nat.mul_le_mono_r (Datatypes.S r) kh (kw * ch * n) Hr) as C. rewrite !Nat.mul_assoc in *. cbn [Nat.mul] in A, B, C. rewrite !Nat.mul_add_distr_r in *. lia.
Qed.
Lemma dump_doc l : ok_layer l -> dump l = Ok (doc_of l).
Proof.
  intros (Of & O). pose proof (size0_in _ Of) as (I1 & I2). pose proof (size0_out _ Of) as I3.
  destruct l as [t f|f al|f w b|f k s p n w b|t f k s|f x|f x|f a h s w1 w2 w3 b1 b2]; cbn [fields_of] in *; cbn [dump].
  - apply dump_fields_ok.
  - apply dump_fields_ok.
  - destruct O as (O1 & O2). unfold dump_dense. rewrite dump_fields_ok, I3, I1. cbn [bind]. rewrite dump_matrix_ok, dump_vector_ok by assumption. cbn [bind]. reflexivity.
  - destruct O as (O1 & O2 & _). unfold dump_conv. rewrite dump_fields_ok, I2. cbn [bind].
    rewrite (appends_ok _ _ (fun r => jl (tab (snd k) (fun c => jl (tab (in_channels f) (fun q => jl (tab n (fun i => num w (r * snd k * in_channels f * n + c * in_channels f * n + q * n + i))))))))).
    2:{ intros r Hr. apply appends_ok. intros c Hc. apply appends_ok. intros q Hq. apply appends_ok. intros i Hi. rewrite (rd_nth w _ d0); [reflexivity|]. rewrite O1.
        now apply idx4. }
    cbn [bind]. rewrite dump_vector_ok by assumption. cbn [bind]. reflexivity.
  - unfold dump_pool. rewrite dump_fields_ok. reflexivity.
  - unfold dump_one. rewrite dump_fields_ok. reflexivity.
  - unfold dump_one. rewrite dump_fields_ok. reflexivity.
  - destruct O as (O1 & O2 & O3 & O4 & O5 & _). unfold dump_rec. rewrite dump_fields_ok, I1, I3. cbn [bind].
    rewrite !dump_matrix_ok, !dump_vector_ok by assumption. cbn [bind append app]. reflexivity.
Qed.

Section Loads.
  Variable F : R -> Prop.
  Variable fl : R -> R.
  Lemma as_double_num (w : list dbl) i : Forall (finite F) w -> i < length w -> as_double fl (num w i) = Ok (nth i (map (trip fl) w) d0).
  Proof.
    intros H Hi. unfold num, as_double, leaf_double. cbn [as_leaf]. rewrite (trip_read fl F).
    - f_equal. rewrite (nth_indep (map (trip fl) w) d0 (trip fl d0)) by now rewrite map_length. now rewrite map_nth.
    - rewrite Forall_forall in H. apply H. now apply nth_In.
  Qed.
  Lemma load_vector_ok n b b0 : length b = n -> Forall (finite F) b -> load_vector fl (Ok (vector_doc n b)) n b0 = Ok (map (trip fl) b).
  Proof.
    intros H Hb. unfold load_vector. apply fills_done with (N := n); [|rewrite map_length; exact H|apply resize_length].
    apply (fills_at n 0 (0 + n * 1)); [lia|lia|]. apply fills_for. intros i Hi. apply (fills_at n i (Datatypes.S i)); [lia|lia|].
    apply fills_cell; [lia|]. intros d Hd. cbn [bind]. unfold vector_doc. rewrite at_idx_jl by lia. cbn [bind]. rewrite as_double_num by (assumption || lia). reflexivity.
  Qed.
  Lemma load_matrix_ok r c w w0 : length w = r * c -> Forall (finite F) w -> load_matrix fl (Ok (matrix_doc r c w)) r c w0 = Ok (map (trip fl) w).
  Proof.
    intros H Hw. unfold load_matrix. apply fills_done with (N := r * c); [|rewrite map_length; exact H|apply resize_length].
    apply (fills_for (r * c) 0 r c). intros i Hi. cbn [Nat.add]. 
    assert (G : fills (r * c) (i * c) (i * c + c * 1) (map (trip fl) w) (fun d => for_ c (fun j w1 => d <- Ok (matrix_doc r c w) ;; r0 <- at_idx d i ;; e <- at_idx r0 j ;; x <- as_double fl e ;; wr w1 (i * c + j) x) d)).
    { apply fills_for. intros j Hj. replace (i * c + j * 1) with (i * c + j) by lia. replace (i * c + j + 1) with (Datatypes.S (i * c + j)) by lia.
      assert (L : i * c + j < r * c) by (pose proof (Nat.mul_le_mono_r (Datatypes.S i) r c Hi); cbn [Nat.mul] in *; lia).
      apply fills_cell; [exact L|]. intros d Hd. cbn [bind]. unfold matrix_doc. rewrite at_idx_jl by exact Hi. cbn [bind]. rewrite at_idx_jl by exact Hj. cbn [bind].
      rewrite as_double_num by (assumption || lia). reflexivity. }
    rewrite Nat.mul_1_r in G. exact G.
  Qed.
  Lemma load_tensor_ok kh kw ch nf w w0 : length w = kh * kw * ch * nf -> Forall (finite F) w ->
    for_ kh (fun r w1 => for_ kw (fun c w1 => for_ ch (fun k w1 => for_ nf (fun i w1 =>
        d <- Ok (tensor_doc kh kw ch nf w) ;; d <- at_idx d r ;; d <- at_idx d c ;; d <- at_idx d k ;; e <- at_idx d i ;;
        x <- as_double fl e ;; wr w1 (r * kw * ch * nf + c * ch * nf + k * nf + i) x) w1) w1) w1)
      (resize (DFin false 0) (kh * kw * ch * nf) w0) = Ok (map (trip fl) w).
  Proof.
    intros H Hw. set (N := kh * kw * ch * nf) in *. apply fills_done with (N := N); [|rewrite map_length; exact H|apply resize_length].
    apply (fills_at N 0 (0 + kh * (kw * ch * nf))); [lia|unfold N; lia|]. apply fills_for. intros r Hr.
    apply (fills_at N (r * kw * ch * nf) (r * kw * ch * nf + kw * (ch * nf))); [lia|lia|]. apply fills_for. intros c Hc.
    apply (fills_at N (r * kw * ch * nf + c * ch * nf) (r * kw * ch * nf + c * ch * nf + ch * nf)); [lia|lia|].
    apply fills_for. intros k Hk. set (o := r * kw * ch * nf + c * ch * nf + k * nf). apply (fills_at N o (o + nf * 1)); [lia|lia|]. apply fills_for. intros i Hi.
    apply (fills_at N (o + i) (Datatypes.S (o + i))); [lia|lia|].
    assert (L : o + i < N) by (apply idx4; assumption).
    apply fills_cell; [exact L|]. intros d Hd. cbn [bind]. unfold tensor_doc.
    do 4 (rewrite at_idx_jl by assumption; cbn [bind]). fold o. rewrite as_double_num by (assumption || lia). reflexivity.
  Qed.
  Lemma text_eqb_same v : text_eqb v v = true. Proof. apply text_eqb_refl. Qed.
  Lemma load_fields_ok t f m : ok_fields f ->
    map_find (txt "type") m = Some (leaf_text t) -> map_find (txt "name") m = Some (leaf_text (f_name f)) ->
    map_find (txt "input_shape") m = Some (shapes_doc (f_in f)) -> map_find (txt "output_shape") m = Some (shapes_doc (f_out f)) ->
    load_fields t (JDict m) = Ok f.
  Proof.
    intros O E1 E2 E3 E4. pose proof (size0_in _ O) as (I1 & _). pose proof (size0_out _ O) as I3. destruct O as (_ & _ & S1 & S2).
    unfold load_fields, at_key. cbn [guard bind]. rewrite E1. cbn [bind as_text as_leaf leaf_text]. rewrite text_eqb_same. cbn [guard bind]. rewrite E2. cbn [bind]. rewrite E3. cbn [bind].
    rewrite load_shapes_ok by assumption. cbn [bind]. rewrite I1. cbn [bind]. rewrite E4. cbn [bind]. rewrite load_shapes_ok by assumption. cbn [bind]. rewrite I3. cbn [bind item_text leaf_text].
    now destruct f.
  Qed.
  Definition restored (l0 l : dlayer) : dlayer :=
    let g := map (trip fl) in
    match l with
    | DPlain _ _ | DPool _ _ _ _ => l
    | DElu f a => match l0 with DElu _ a0 => DElu f a0 | _ => l end
    | DDense f w b => DDense f (g w) (g b)
    | DConv f k s p n w b => DConv f k s p n (g w) (g b)
    | DDrop f x => DDrop f (trip fl x)
    | DMse f x => DMse f (trip fl x)
    | DRec f a h s w1 w2 w3 b1 b2 => DRec f a h s (g w1) (g w2) (g w3) (g b1) (g b2)
    end.
  Lemma as_sizes_pair a b : small a -> small b -> as_sizes (list_size [a; b]) = Ok [a; b].
  Proof. intros A B. cbn [as_sizes list_size map mapM]. rewrite !as_size_leaf by assumption. reflexivity. Qed.
  Lemma load_doc l0 l : ok_layer l -> Forall (finite F) (numbers l) -> same_class l0 l -> load fl l0 (doc_of l) = Ok (restored l0 l).
  Proof.
    intros (Of & O) N C.
    assert (LF : load_fields (type_of l) (doc_of l) = Ok (fields_of l)).
    { unfold doc_of, doc_map. apply load_fields_ok; [exact Of|..]; destruct l; reflexivity. }
    pose proof (size0_in _ Of) as (I1 & I2). pose proof (size0_out _ Of) as I3.
    destruct l as [t f|f al|f w b|f k s p n w b|t f k s|f x|f x|f a h s w1 w2 w3 b1 b2]; destruct l0; try easy; cbn [fields_of type_of numbers] in *; cbn [load restored]; cbn [same_class] in C; subst.
    - rewrite LF. reflexivity.
    - rewrite LF. reflexivity.
    - apply Forall_app in N as (N1 & N2). destruct O as (O1 & O2). unfold load_dense. rewrite LF. cbn [bind]. rewrite I3, I1. cbn [bind].
      match goal with |- context [at_key ?d (txt "weights")] => replace (at_key d (txt "weights")) with (Ok (matrix_doc (out_size f) (in_size f) w)) by reflexivity; replace (at_key d (txt "biases")) with (Ok (vector_doc (out_size f) b)) by reflexivity end.
      rewrite load_matrix_ok by assumption. cbn [bind]. rewrite load_vector_ok by assumption. reflexivity.
    - apply Forall_app in N as (N1 & N2). destruct O as (O1 & O2 & (K1 & K2) & (S1 & S2) & (P1 & P2) & Sn). unfold load_conv. rewrite LF. cbn [bind]. set (D := doc_of _).
      unfold pair_of. replace (other D (txt "kernel_size")) with (Ok (list_size [fst k; snd k])) by reflexivity. replace (other D (txt "stride")) with (Ok (list_size [fst s; snd s])) by reflexivity.
      replace (other D (txt "padding")) with (Ok (list_size [fst p; snd p])) by reflexivity. replace (other D (txt "n_filters")) with (Ok (leaf_size n)) by reflexivity.
      cbn [bind]. rewrite !as_sizes_pair by assumption. cbn [bind]. rewrite as_size_leaf by assumption. cbn [bind]. rewrite I2. cbn [bind fst snd].
      match goal with |- bind ?m _ = _ => assert (Q : m = Ok (map (trip fl) w)) end.
      { replace (at_key D (txt "weights")) with (Ok (tensor_doc (fst k) (snd k) (in_channels f) n w)) by reflexivity. apply load_tensor_ok; assumption. }
      rewrite Q. cbn [bind]. replace (at_key D (txt "biases")) with (Ok (vector_doc n b)) by reflexivity. rewrite load_vector_ok by assumption. cbn [bind]. now destruct k, s, p.
    - destruct O as ((K1 & K2) & (S1 & S2)). unfold load_pool. rewrite LF. cbn [bind]. set (D := doc_of _).
      unfold pair_of. replace (other D (txt "kernel_size")) with (Ok (list_size [fst k; snd k])) by reflexivity. replace (other D (txt "stride")) with (Ok (list_size [fst s; snd s])) by reflexivity.
      cbn [bind]. rewrite !as_sizes_pair by assumption. cbn [bind]. now destruct k, s.
    - rewrite LF. cbn [bind]. match goal with |- context [other ?d ?k] => replace (other d k) with (Ok (leaf_double x)) by reflexivity end. cbn [bind]. inversion N; subst.
      unfold as_double, leaf_double. cbn [as_leaf]. rewrite (trip_read fl F) by assumption. reflexivity.
    - rewrite LF. cbn [bind]. match goal with |- context [other ?d ?k] => replace (other d k) with (Ok (leaf_double x)) by reflexivity end. cbn [bind]. inversion N; subst.
      unfold as_double, leaf_double. cbn [as_leaf]. rewrite (trip_read fl F) by assumption. reflexivity.
    - rewrite !Forall_app in N. destruct N as (N1 & N2 & N3 & N4 & N5). destruct O as (O1 & O2 & O3 & O4 & O5 & Sh & Ss & Sa). unfold load_rec. rewrite LF. cbn [bind]. set (D := doc_of _).
      replace (other D (txt "hidden_activation")) with (Ok (leaf_int a)) by reflexivity. replace (other D (txt "hidden_size")) with (Ok (leaf_size h)) by reflexivity.
      replace (other D (txt "time_steps")) with (Ok (leaf_size s)) by reflexivity. cbn [bind].
      replace (as_int (leaf_int a)) with (Ok a) by (symmetry; now apply read_int_print). cbn [bind]. rewrite !as_size_leaf by assumption. cbn [bind]. rewrite I1, I3. cbn [bind].
      replace (at_key D (txt "weights")) with (Ok (JList [matrix_doc h (in_size f) w1; matrix_doc h h w2; matrix_doc (out_size f) h w3])) by reflexivity.
      replace (at_key D (txt "biases")) with (Ok (JList [vector_doc h b1; vector_doc (out_size f) b2])) by reflexivity. cbn [bind at_idx nth_error].
      do 5 (rewrite ?load_matrix_ok, ?load_vector_ok by assumption; cbn [bind]). reflexivity.
  Qed.
End Loads.

Lemma leaf_trip fl F x : nearest F fl -> finite F x -> leaf_double (trip fl x) = leaf_double x.
Proof. intros Hn Hx. unfold leaf_double. now rewrite (trip_print fl F). Qed.
Lemma num_trip fl F w i : nearest F fl -> Forall (finite F) w -> i < length w -> num (map (trip fl) w) i = num w i.
Proof.
  intros Hn Hw Hi. unfold num. rewrite (nth_indep (map (trip fl) w) d0 (trip fl d0)) by now rewrite map_length. rewrite map_nth. apply (leaf_trip fl F); [exact Hn|].
  rewrite Forall_forall in Hw. apply Hw. now apply nth_In.
Qed.
Lemma vector_trip fl F n w : nearest F fl -> Forall (finite F) w -> length w = n -> vector_doc n (map (trip fl) w) = vector_doc n w.
Proof. intros Hn Hw L. unfold vector_doc. f_equal. apply tab_ext. intros i Hi. apply (num_trip fl F); [exact Hn|exact Hw|lia]. Qed.
Lemma matrix_trip fl F r c w : nearest F fl -> Forall (finite F) w -> length w = r * c -> matrix_doc r c (map (trip fl) w) = matrix_doc r c w.
Proof.
  intros Hn Hw L. unfold matrix_doc. f_equal. apply tab_ext. intros i Hi. f_equal. apply tab_ext. intros j Hj. apply (num_trip fl F); [exact Hn|exact Hw|].
  pose proof (Nat.mul_le_mono_r (Datatypes.S i) r c Hi). cbn [Nat.mul] in *. lia.
Qed.
Lemma tensor_trip fl F kh kw ch nf w : nearest F fl -> Forall (finite F) w -> length w = kh * kw * ch * nf -> tensor_doc kh kw ch nf (map (trip fl) w) = tensor_doc kh kw ch nf w.
Proof.
  intros Hn Hw L. unfold tensor_doc. f_equal. apply tab_ext. intros r Hr. f_equal. apply tab_ext. intros c Hc. f_equal. apply tab_ext. intros k Hk. f_equal. apply tab_ext. intros i Hi.
  apply (num_trip fl F); [exact Hn|exact Hw|]. rewrite L. now apply idx4.
Qed.
Lemma doc_restored fl F l0 l : nearest F fl -> ok_layer l -> Forall (finite F) (numbers l) -> same_class l0 l -> doc_of (restored fl l0 l) = doc_of l.
Proof.
  intros Hn (_ & O) N C.
  destruct l as [t f|f al|f w b|f k s p n w b|t f k s|f x|f x|f a h s w1 w2 w3 b1 b2]; destruct l0; try easy; cbn [restored numbers] in *; unfold doc_of, doc_map; cbn [biases_of others_of weights_of fields_of type_of].
  - apply Forall_app in N as (N1 & N2). destruct O as (O1 & O2). now rewrite (vector_trip fl F), (matrix_trip fl F).
  - apply Forall_app in N as (N1 & N2). destruct O as (O1 & O2 & _). now rewrite (vector_trip fl F), (tensor_trip fl F).
  - inversion N; subst. now rewrite (leaf_trip fl F).
  - inversion N; subst. now rewrite (leaf_trip fl F).
  - rewrite !Forall_app in N. destruct N as (N1 & N2 & N3 & N4 & N5). destruct O as (O1 & O2 & O3 & O4 & O5 & _).
    now rewrite !(vector_trip fl F), !(matrix_trip fl F).
Qed.
Lemma ok_restored fl l0 l : ok_layer l -> ok_layer (restored fl l0 l).
Proof.
  intros (Of & O). destruct l as [t f|f al|f w b|f k s p n w b|t f k s|f x|f x|f a h s w1 w2 w3 b1 b2]; cbn [restored fields_of] in *; try (split; [exact Of|]); cbn [fields_of]; rewrite ?map_length; try assumption.
  destruct l0; split; auto.
Qed.
Lemma frame_restored fl l0 l : frame (restored fl l0 l) = frame l.
Proof.
  destruct l as [t f|f al|f w b|f [] [] [] n w b|t f [] []|f x|f x|f a h s w1 w2 w3 b1 b2]; unfold frame; cbn [restored type_of fields_of]; rewrite ?map_length; try reflexivity.
  now destruct l0.
Qed.
Lemma numbers_restored fl l0 l : numbers (restored fl l0 l) = map (trip fl) (numbers l).
Proof.
  destruct l as [t f|f al|f w b|f k s p n w b|t f k s|f x|f x|f a h s w1 w2 w3 b1 b2]; cbn [restored numbers]; rewrite ?map_app; try reflexivity.
  now destruct l0.
Qed.
Lemma Forall2_map_r {A} (P : A -> A -> Prop) (g : A -> A) l : Forall (fun x => P x (g x)) l -> Forall2 P l (map g l).
Proof. induction 1; constructor; auto. Qed.

(** *** C43 *)
(** Doubles with any correct rounding: everything saved comes back, numbers within a millionth
    (half of it from printing six decimals, at most half from reading), and saving again gives the
    same document, hence the same text. [l0] is the layer of the same class that loads. *)
Theorem c43_layer : forall F fl l0 l, nearest F fl -> ok_layer l -> Forall (finite F) (numbers l) -> same_class l0 l ->
  exists d l', dump l = Ok d /\ load fl l0 d = Ok l' /\ frame l' = frame l /\ Forall2 (close (1 / 10 ^ 6)) (numbers l) (numbers l') /\ dump l' = Ok d.
Proof.
  intros F fl l0 l Hn O N C. exists (doc_of l), (restored fl l0 l). split; [now apply dump_doc|]. split; [now apply (load_doc F)|]. split; [apply frame_restored|]. split.
  - rewrite numbers_restored. apply Forall2_map_r. eapply Forall_impl; [|exact N]. intros x Hx. now apply (trip_close fl F).
  - rewrite dump_doc by now apply ok_restored. f_equal. now apply (doc_restored fl F).
Qed.
(** Reading without rounding: within half a millionth, and unchanged exactly for the numbers
    with six decimals. *)
Theorem c43_layer_exact : forall l0 l, ok_layer l -> Forall (finite (fun _ => True)) (numbers l) -> same_class l0 l ->
  exists d l', dump l = Ok d /\ load (fun y => y) l0 d = Ok l' /\ frame l' = frame l /\
    Forall2 (close (/ 2 / 10 ^ 6)) (numbers l) (numbers l') /\ Forall2 (fun x x' => x' = x <-> six_decimals x) (numbers l) (numbers l') /\ dump l' = Ok d.
Proof.
  intros l0 l O N C. assert (Hn : nearest (fun _ => True) (fun y => y)).
  { intros y Hy. split; [exact I|]. split; [exact Hy|]. intros x _ _. rewrite Rminus_diag_eq by reflexivity. rewrite Rabs_R0. apply Rabs_pos. }
  exists (doc_of l), (restored (fun y => y) l0 l). split; [now apply dump_doc|]. split; [now apply (load_doc (fun _ => True))|]. split; [apply frame_restored|].
  split; [|split].
  - rewrite numbers_restored. apply Forall2_map_r. eapply Forall_impl; [|exact N]. intros x Hx. now apply (trip_close_exact (fun _ => True)).
  - rewrite numbers_restored. apply (Forall2_map_r (fun x x' => x' = x <-> six_decimals x)). eapply Forall_impl; [|exact N]. intros x Hx. now apply (trip_exact_iff (fun _ => True)).
  - rewrite dump_doc by now apply ok_restored. f_equal. now apply (doc_restored (fun y => y) (fun _ => True)).
Qed.

(** *** Through a file *)
Definition good (d : json) : Prop := wf d /\ typed d /\ print d <> [].
Lemma good_list l : l <> [] -> Forall good l -> good (JList l).
Proof.
  intros N H. split; [|split].
  - cbn [wf]. split; [exact N|]. split.
    + right. assert (In (last l JNull) l). { destruct l as [|x l]; [easy|]. rewrite (app_removelast_last JNull N) at 2. apply in_or_app. right. now left. }
      rewrite Forall_forall in H. now apply H.
    + clear N. induction H as [|x l (A & _) H IH]; [exact I|]. auto.
  - cbn [typed]. clear N. induction H as [|x l (_ & A & _) H IH]; [exact I|]. auto.
  - discriminate.
Qed.
Lemma good_dict m : m <> [] -> StronglySorted key_lt (keys m) -> Forall (fun p => ~ In quote (fst p) /\ wf (snd p) /\ typed (snd p)) m -> good (JDict m).
Proof.
  intros N S1 H. split; [|split].
  - cbn [wf]. split; [exact N|]. split; [exact S1|]. clear N S1. induction H as [|(k, x) m (A & B & _) H IH]; [exact I|]. auto.
  - cbn [typed]. clear N S1. induction H as [|(k, x) m (_ & _ & B) H IH]; [exact I|]. auto.
  - discriminate.
Qed.
Lemma good_jl n g : 0 < n -> (forall i, i < n -> good (g i)) -> good (jl (tab n g)).
Proof.
  intros H G. assert (E : jl (tab n g) = JList (tab n g)) by (destruct n; [lia|rewrite tab_cons; reflexivity]). rewrite E. apply good_list.
  - intros Q. apply (f_equal (@List.length json)) in Q. rewrite tab_length in Q. cbn in Q. lia.
  - apply Forall_forall. intros x I. apply (In_nth _ _ JNull) in I as (i & Hi & <-). rewrite tab_length in Hi. rewrite nth_tab by exact Hi. now apply G.
Qed.
Lemma good_int z : good (leaf_int z).
Proof.
  destruct (c44_leaves [] z true) as (_ & (A & B) & _). split; [exact A|]. split; [exact B|]. cbn [print leaf_int]. intros E. pose proof (c46_print_int z) as P. rewrite E in P. discriminate.
Qed.
Lemma good_double F x : finite F x -> good (leaf_double x).
Proof.
  intros (neg & m & -> & H & _). pose proof (print_double_type neg m H) as T. unfold leaf_double. split; [|split].
  - cbn [wf]. apply unquoted_plain. rewrite T. discriminate.
  - cbn [typed]. right. now rewrite T.
  - cbn [print]. intros E. rewrite E in T. discriminate.
Qed.
Lemma good_num F w i : Forall (finite F) w -> i < length w -> good (num w i).
Proof. intros H Hi. apply (good_double F). rewrite Forall_forall in H. apply H. now apply nth_In. Qed.
Lemma good_vector F n w : Forall (finite F) w -> length w = n -> 0 < n -> good (vector_doc n w).
Proof. intros H L N. apply good_jl; [exact N|]. intros i Hi. apply (good_num F); [exact H|lia]. Qed.
Lemma good_matrix F r c w : Forall (finite F) w -> length w = r * c -> 0 < r -> 0 < c -> good (matrix_doc r c w).
Proof.
  intros H L N1 N2. apply good_jl; [exact N1|]. intros i Hi. apply good_jl; [exact N2|]. intros j Hj. apply (good_num F); [exact H|].
  pose proof (Nat.mul_le_mono_r (Datatypes.S i) r c Hi). cbn [Nat.mul] in *. lia.
Qed.
Lemma good_tensor F kh kw ch nf w : Forall (finite F) w -> length w = kh * kw * ch * nf -> 0 < kh -> 0 < kw -> 0 < ch -> 0 < nf -> good (tensor_doc kh kw ch nf w).
Proof.
  intros H L N1 N2 N3 N4. apply good_jl; [exact N1|]. intros r Hr. apply good_jl; [exact N2|]. intros c Hc. apply good_jl; [exact N3|]. intros k Hk. apply good_jl; [exact N4|]. intros i Hi.
  apply (good_num F); [exact H|]. rewrite L. now apply idx4.
Qed.
Lemma good_sizes l : l <> [] -> good (list_size l).
Proof. intros N. apply good_list; [destruct l; [easy|discriminate]|]. apply Forall_forall. intros x I. apply in_map_iff in I as (n & <- & _). apply good_int. Qed.
Lemma good_shapes l : l <> [] -> good (shapes_doc l).
Proof.
  intros N. unfold shapes_doc. destruct l as [|s l]; [easy|]. cbn [jl map]. apply good_list; [discriminate|]. change (Forall good (map (fun s => let '(h, w, c) := s in list_size [h; w; c]) (s :: l))).
  apply Forall_forall. intros x I. apply in_map_iff in I as (((h, w), c) & <- & _). apply good_sizes. discriminate.
Qed.
(** Names without double quote; no dimension of a parameter array is zero. *)
Definition file_layer (l : dlayer) : Prop :=
  ~ In quote (f_name (fields_of l)) /\ ~ In quote (type_of l) /\
  match l with
  | DDense f _ _ => 0 < out_size f /\ 0 < in_size f
  | DConv f k _ _ n _ _ => 0 < fst k /\ 0 < snd k /\ 0 < in_channels f /\ 0 < n
  | DRec f _ h _ _ _ _ _ _ => 0 < h /\ 0 < out_size f /\ 0 < in_size f
  | _ => True
  end.
Lemma good_doc F l : ok_layer l -> Forall (finite F) (numbers l) -> file_layer l -> good (doc_of l).
Proof.
  intros (Of & O) N (Q1 & Q2 & P). unfold doc_of. apply good_dict.
  - unfold doc_map. destruct (opt _ _); discriminate.
  - destruct l; unfold doc_map; cbn [biases_of others_of weights_of opt app keys map fst]; repeat constructor.
  - destruct Of as (F1 & F2 & _). unfold doc_map.
    assert (G : forall k x, ~ In quote k -> good x -> ~ In quote (fst (k, x)) /\ wf (snd (k, x)) /\ typed (snd (k, x))) by (intros k x A (B & C & _); auto).
    assert (T : forall k v, ~ In quote k -> ~ In quote v -> ~ In quote (fst (k, leaf_text v)) /\ wf (snd (k, leaf_text v)) /\ typed (snd (k, leaf_text v))) by (intros k v A B; destruct (c44_leaves v 0%Z true) as (W & _); destruct (W B); auto).
    assert (NQ : forall k, existsb (Ascii.eqb quote) k = false -> ~ In quote k).
    { intros k E I. apply not_true_iff_false in E. apply E. apply existsb_exists. exists quote. split; [exact I|reflexivity]. }
    assert (OP : forall k o, ~ In quote k -> (forall x, o = Some x -> good x) -> Forall (fun p => ~ In quote (fst p) /\ wf (snd p) /\ typed (snd p)) (opt k o)).
    { intros k [x|] A B; constructor; [apply G; auto|constructor]. }
    apply Forall_app. split; [|constructor; [apply G; [now apply NQ|now apply good_shapes]|constructor; [apply T; [now apply NQ|exact Q1]|apply Forall_app; split; [|constructor; [apply G; [now apply NQ|now apply good_shapes]|constructor; [apply T; [now apply NQ|exact Q2]|]]]]]].
    + apply OP; [now apply NQ|]. intros x. destruct l as [t f|f al|f w b|f k s p n w b|t f k s|f y|f y|f a h s w1 w2 w3 b1 b2]; cbn [biases_of numbers fields_of] in *; intros [= <-].
      * apply Forall_app in N as (N1 & N2). now apply (good_vector F).
      * apply Forall_app in N as (N1 & N2). now apply (good_vector F).
      * rewrite !Forall_app in N. destruct N as (N1 & N2 & N3 & N4 & N5), O as (O1 & O2 & O3 & O4 & O5 & _), P as (P1 & P2 & P3). apply good_list; [discriminate|].
        constructor; [now apply (good_vector F)|constructor; [now apply (good_vector F)|constructor]].
    + apply OP; [now apply NQ|]. intros x. destruct l as [t f|f al|f w b|f k s p n w b|t f k s|f y|f y|f a h s w1 w2 w3 b1 b2]; cbn [others_of numbers fields_of] in *; intros [= <-]; (apply good_dict; [discriminate|repeat constructor|]).
      * repeat (constructor; [apply G; [now apply NQ|first [apply good_int|apply good_sizes; discriminate]]|]). constructor.
      * repeat (constructor; [apply G; [now apply NQ|first [apply good_int|apply good_sizes; discriminate]]|]). constructor.
      * constructor; [|constructor]. apply G; [now apply NQ|]. inversion N; subst. now apply (good_double F).
      * constructor; [|constructor]. apply G; [now apply NQ|]. inversion N; subst. now apply (good_double F).
      * repeat (constructor; [apply G; [now apply NQ|first [apply good_int|apply good_sizes; discriminate]]|]). constructor.
    + apply OP; [now apply NQ|]. intros x. destruct l as [t f|f al|f w b|f k s p n w b|t f k s|f y|f y|f a h s w1 w2 w3 b1 b2]; cbn [weights_of numbers fields_of] in *; intros [= <-].
      * apply Forall_app in N as (N1 & N2). destruct O as (O1 & O2), P as (P1 & P2). now apply (good_matrix F).
      * apply Forall_app in N as (N1 & N2). destruct O as (O1 & O2 & _), P as (P1 & P2 & P3 & P4). now apply (good_tensor F).
      * rewrite !Forall_app in N. destruct N as (N1 & N2 & N3 & N4 & N5), O as (O1 & O2 & O3 & O4 & O5 & _), P as (P1 & P2 & P3). apply good_list; [discriminate|].
        constructor; [now apply (good_matrix F)|constructor; [now apply (good_matrix F)|constructor; [now apply (good_matrix F)|constructor]]].
Qed.
Lemma read_back_good d : good d -> exists n0, forall n, n0 <= n -> read_back n d = Some (Ok d).
Proof.
  intros (W & T & P). destruct (c44_roundtrip_partial d W P) as (f0 & st & E). exists f0. intros n Hn. unfold read_back. rewrite (E n Hn). now rewrite c44_same.
Qed.

(** *** Models *)
Definition model_ok (F : R -> Prop) (m : dmodel) : Prop := Forall (fun l => ok_layer l /\ Forall (finite F) (numbers l)) (m_layers m).
Definition model_doc (m : dmodel) : json := JDict [(txt "layers", jl (map doc_of (m_layers m))); (txt "name", leaf_text (m_name m))].
Lemma dump_model_ok m : Forall ok_layer (m_layers m) -> dump_model m = Ok (model_doc m).
Proof.
  intros H. unfold dump_model.
  assert (E : forall a, foldM (fun acc l => x <- dump l ;; append acc x) (m_layers m) (jl a) = Ok (jl (a ++ map doc_of (m_layers m)))).
  { induction H as [|l ls Hl H IH]; intros a; [now rewrite app_nil_r|]. cbn [foldM]. rewrite dump_doc by exact Hl. cbn [bind]. rewrite append_jl. cbn [bind]. rewrite IH, <- app_assoc. reflexivity. }
  cbn [set_key bind]. pose proof (E []) as E0. cbn [jl app] in E0. rewrite E0. reflexivity.
Qed.
Fixpoint map2 {A B C} (f : A -> B -> C) (a : list A) (b : list B) : list C := match a, b with x :: a, y :: b => f x y :: map2 f a b | _, _ => [] end.
Lemma load_model_ok F fl m0 m : model_ok F m -> Forall2 same_class (m_layers m0) (m_layers m) ->
  load_model fl m0 (model_doc m) = Ok (mkDM (m_name m) (map2 (restored fl) (m_layers m0) (m_layers m))).
Proof.
  intros H C. unfold load_model. set (D := model_doc m).
  replace (get_key D (txt "name")) with (Ok (leaf_text (m_name m))) by reflexivity. cbn [bind as_text as_leaf leaf_text].
  replace (get_key D (txt "layers")) with (Ok (jl (map doc_of (m_layers m)))) by reflexivity. cbn [bind].
  set (L0 := m_layers m0) in *. set (L := m_layers m) in *. unfold model_ok in H. fold L in H. clearbody L L0.
  assert (LL : length L0 = length L) by (clear - C; induction C; cbn; congruence).
  set (x0 := DPlain [] (mkF [] [] [])).
  assert (HL : forall i, i < length L -> same_class (nth i L0 x0) (nth i L x0)) by (clear - C; induction C as [|a b l l' A _ IH]; intros [|i] Hi; cbn in *; try lia; [exact A|apply IH; lia]).
  destruct (for_inv (fun k ls => ls = map2 (restored fl) (firstn k L0) (firstn k L) ++ skipn k L0) (length L0)
    (fun i ls => j <- sub_idx (jl (map doc_of L)) i ;; l <- rd ls i ;; l' <- load fl l j ;; wr ls i l') L0) as (s & E & ->).
  - reflexivity.
  - intros k s Hk ->. assert (M : forall a b : list dlayer, length (map2 (restored fl) a b) = Nat.min (length a) (length b)) by (clear; induction a as [|x a IH]; intros [|y b]; cbn; auto).
    assert (LM : length (map2 (restored fl) (firstn k L0) (firstn k L)) = k) by (rewrite M, !firstn_length; lia).
    assert (J : sub_idx (jl (map doc_of L)) k = Ok (doc_of (nth k L x0))).
    { assert (Ej : jl (map doc_of L) = JList (map doc_of L)) by (destruct L; cbn in *; [lia|reflexivity]). rewrite Ej. cbn [at_idx]. rewrite (nth_error_nth' _ (doc_of x0)) by (rewrite map_length; lia). now rewrite map_nth. }
    rewrite J. cbn [bind]. assert (SK : skipn k L0 = nth k L0 x0 :: skipn (Datatypes.S k) L0).
    { clear - Hk. revert k Hk. induction L0 as [|x l IH]; intros [|k] Hk; cbn in *; try lia; [reflexivity|]. rewrite (IH k) by lia. reflexivity. }
    rewrite (rd_nth _ k x0) by (rewrite app_length, skipn_length; lia). cbn [bind]. rewrite app_nth2 by lia. rewrite LM, Nat.sub_diag, SK. cbn [nth].
    rewrite Forall_forall in H. destruct (H (nth k L x0)) as (A & B); [apply nth_In; lia|]. rewrite (load_doc F) by (auto; apply HL; lia). cbn [bind].
    rewrite wr_ok by (rewrite app_length; cbn [length]; lia). eexists. split; [reflexivity|].
    assert (U : forall (u v : list dlayer) x y, upd (u ++ x :: v) (length u) y = u ++ y :: v) by (clear; induction u as [|a u IH]; intros; cbn; [reflexivity|now f_equal]).
    rewrite <- LM at 5. rewrite U. clear - Hk LL.
    replace (map2 (restored fl) (firstn (Datatypes.S k) L0) (firstn (Datatypes.S k) L)) with (map2 (restored fl) (firstn k L0) (firstn k L) ++ [restored fl (nth k L0 x0) (nth k L x0)]); [now rewrite <- app_assoc|].
    revert L LL k Hk. induction L0 as [|x l IH]; intros [|y L] LL [|k] Hk; cbn [length] in *; try lia; [reflexivity|]. cbn [firstn map2 nth app]. f_equal. apply IH; lia.
  - rewrite E. cbn [bind]. rewrite LL at 2. rewrite !firstn_all. rewrite skipn_all, app_nil_r. reflexivity.
Qed.

(** A model saved to a file and loaded into a model with layers of the same classes. *)
Theorem c43_model_file : forall F fl m0 m, nearest F fl -> model_ok F m -> Forall2 same_class (m_layers m0) (m_layers m) ->
  m_layers m <> [] -> ~ In quote (m_name m) -> Forall file_layer (m_layers m) ->
  exists d n0 m', dump_model m = Ok d /\ (forall n, n0 <= n -> read_back n d = Some (Ok d)) /\ load_model fl m0 d = Ok m' /\
    m_name m' = m_name m /\ map frame (m_layers m') = map frame (m_layers m) /\
    Forall2 (fun l l' => Forall2 (close (1 / 10 ^ 6)) (numbers l) (numbers l')) (m_layers m) (m_layers m') /\ dump_model m' = Ok d.
Proof.
  intros F fl m0 m Hn H C NE Q FL.
  assert (OK : Forall ok_layer (m_layers m)) by (eapply Forall_impl; [|exact H]; now intros l (A & _)).
  assert (G : good (model_doc m)).
  { unfold model_ok in H. unfold model_doc. apply good_dict; [discriminate|repeat constructor|]. constructor; [|constructor; [|constructor]]; cbn [fst snd].
    - split; [cbn; intuition discriminate|]. assert (GL : good (jl (map doc_of (m_layers m)))).
      { destruct (m_layers m) as [|l ls]; [easy|]. cbn [jl map]. change (good (JList (map doc_of (l :: ls)))). apply good_list; [discriminate|]. apply Forall_forall. intros x I.
        apply in_map_iff in I as (l' & <- & I). rewrite Forall_forall in H, FL. destruct (H l' I) as (A & B). apply (good_doc F); auto. }
      destruct GL as (A & B & _). auto.
    - split; [cbn; intuition discriminate|]. destruct (c44_leaves (m_name m) 0%Z true) as (W & _). now apply W. }
  destruct (read_back_good _ G) as (n0 & R0). exists (model_doc m), n0. eexists. split; [now apply dump_model_ok|]. split; [exact R0|]. split; [now apply (load_model_ok F)|]. cbn [m_name m_layers].
  split; [reflexivity|].
  assert (K : map frame (map2 (restored fl) (m_layers m0) (m_layers m)) = map frame (m_layers m) /\
    Forall2 (fun l l' => Forall2 (close (1 / 10 ^ 6)) (numbers l) (numbers l')) (m_layers m) (map2 (restored fl) (m_layers m0) (m_layers m)) /\
    Forall ok_layer (map2 (restored fl) (m_layers m0) (m_layers m)) /\ map doc_of (map2 (restored fl) (m_layers m0) (m_layers m)) = map doc_of (m_layers m)).
  { unfold model_ok in H. clear - Hn H C. revert H. induction C as [|l0 l ls0 ls Hc C IH]; intros H; [cbn; repeat split; constructor|]. inversion H as [|? ? (A & B) H']; subst. destruct (IH H') as (I1 & I2 & I3 & I4). cbn [map2 map].
    split; [f_equal; [apply frame_restored|exact I1]|]. split; [|split].
    - constructor; [|exact I2]. rewrite numbers_restored. apply Forall2_map_r. eapply Forall_impl; [|exact B]. intros x Hx. now apply (trip_close fl F).
    - constructor; [now apply ok_restored|exact I3].
    - f_equal; [now apply (doc_restored fl F)|exact I4]. }
  destruct K as (K1 & K2 & K3 & K4). split; [exact K1|]. split; [exact K2|]. rewrite dump_model_ok by exact K3. f_equal. unfold model_doc. cbn [m_name m_layers]. now rewrite K4.
Qed.

(** *** What is not restored *)
(** The alpha of an ELU layer is not saved: the loading layer keeps its own. *)
Theorem c43_elu_alpha_refuted : forall fl f a a0, ok_fields f -> exists d, dump (DElu f a) = Ok d /\ load fl (DElu f a0) d = Ok (DElu f a0).
Proof.
  intros fl f a a0 O. assert (OL : ok_layer (DElu f a)) by (split; [exact O|exact I]). exists (doc_of (DElu f a)). split; [now apply dump_doc|].
  apply (load_doc (fun _ => True) fl (DElu f a0) (DElu f a)); [exact OL|constructor|exact I].
Qed.
(** Infinities and NaN come back as 0. *)
Theorem c43_nonfinite_refuted : forall fl neg, 
  as_double fl (leaf_double (DInf neg)) = Ok (DFin false 0) /\ as_double fl (leaf_double (DNan neg)) = Ok (DFin false 0).
Proof. intros fl []; split; reflexivity. Qed.
(** A name between double quotes is lost in a file; one with a double quote inside makes the
    loading fail. *)
Definition quoted_layer (name : text) : dlayer := DPlain (txt "Relu") (mkF name [(2, 1, 1)] [(2, 1, 1)]).
Theorem c43_quote_refuted :
  (exists d d' n, dump (quoted_layer (txt """a""")) = Ok d /\ read_back n d = Some (Ok d') /\ load (fun y => y) (quoted_layer []) d' = Ok (quoted_layer [])) /\
  (exists d d' n, dump (quoted_layer (txt "a""b")) = Ok d /\ read_back n d = Some (Ok d') /\ load (fun y => y) (quoted_layer []) d' = Throw).
Proof. split; eexists; eexists; exists 40; (split; [vm_compute; reflexivity|]); (split; [vm_compute; reflexivity|]); vm_compute; reflexivity. Qed.
(** Loading refuses a document of another class and a document without value. *)
Theorem c43_wrong_class : forall fl l0 l, ok_layer l -> type_of l0 <> type_of l -> load fl l0 (doc_of l) = Throw /\ load fl l0 JNull = Throw.
Proof.
  intros fl l0 l O N. assert (E : load_fields (type_of l0) (doc_of l) = Throw).
  { unfold load_fields, doc_of, at_key, doc_map. cbn [guard bind]. replace (map_find (txt "type") _) with (Some (leaf_text (type_of l))) by (destruct l; reflexivity). cbn [bind as_text as_leaf leaf_text].
    destruct (text_eqb (type_of l) (type_of l0)) eqn:Q; [apply text_eqb_eq in Q; congruence|reflexivity]. }
  destruct l0; cbn [load type_of] in *; unfold load_dense, load_conv, load_pool, load_rec; rewrite E; split; reflexivity.
Qed.

(** *** Cases *)
Definition ex_dense : dlayer :=
  DDense (mkF (txt "dense, 1") [(2, 1, 1)] [(1, 2, 1)]) [DFin false (/ 2); DFin true (/ 4); DFin true 0; DFin false (1 / 10 ^ 7)] [DFin false 3; DFin true (/ 3)].
Lemma half_ok (x : R) : (0 <= x)%R -> finite (fun _ => True) (DFin false x) /\ finite (fun _ => True) (DFin true x).
Proof. intros H. split; eexists; eexists; (split; [reflexivity|auto]). Qed.
Example c43_ex_ok : ok_layer ex_dense /\ Forall (finite (fun _ => True)) (numbers ex_dense) /\ same_class ex_dense ex_dense /\ file_layer ex_dense.
Proof.
  split; [|split; [|split; [exact I|]]].
  - split; [|split; reflexivity]. repeat split; try discriminate; repeat constructor; vm_compute; reflexivity.
  - cbn [numbers ex_dense app]. repeat (constructor; [apply half_ok; lra|]). constructor.
  - split; [|split]; [vm_compute; intuition discriminate|vm_compute; intuition discriminate|vm_compute; lia].
Qed.
Definition id_nearest : nearest (fun _ => True) (fun y => y).
Proof. intros y Hy. split; [exact I|]. split; [exact Hy|]. intros x _ _. rewrite Rminus_diag_eq by reflexivity. rewrite Rabs_R0. apply Rabs_pos. Qed.
(** A genuine rounding: the numbers with ten binary digits after the point *)
Definition grid (x : R) : Prop := exists k, x = (IZR k / 2 ^ 10)%R.
Definition to_grid (y : R) : R := (IZR (rne (y * 2 ^ 10)) / 2 ^ 10)%R.
Example c43_grid_nearest : nearest grid to_grid.
Proof.
  intros y Hy. split; [eexists; reflexivity|]. split.
  - unfold to_grid. apply Rmult_le_pos; [|left; apply Rinv_0_lt_compat; apply pow_lt; lra]. apply (IZR_le 0), rne_nonneg. apply Rmult_le_pos; [exact Hy|apply pow_le; lra].
  - intros x (k & ->) _. unfold to_grid. pose proof (rne_half (y * 2 ^ 10)) as B. set (r := rne (y * 2 ^ 10)) in *.
    assert (E : (2 ^ 10 = 1024)%R) by ring. rewrite E in *.
    replace (IZR r / 1024 - y)%R with (- ((y * 1024 - IZR r) / 1024))%R by field. replace (IZR k / 1024 - y)%R with (- ((y * 1024 - IZR k) / 1024))%R by field.
    unfold Rdiv. rewrite !Rabs_Ropp, !Rabs_mult. apply Rmult_le_compat_r; [apply Rabs_pos|].
    destruct (Z.eq_dec k r) as [->|D]; [lra|]. assert (1 <= Rabs (IZR k - IZR r))%R.
    { rewrite <- minus_IZR, <- abs_IZR. apply IZR_le. lia. }
    split_Rabs; lra.
Qed.
Example c43_ex_lost : exists d l', dump ex_dense = Ok d /\ load (fun y => y) ex_dense d = Ok l' /\ nth 3 (numbers ex_dense) d0 = DFin false (1 / 10 ^ 7) /\ nth 3 (numbers l') d0 = DFin false 0.
Proof.
  destruct c43_ex_ok as (A & B & C & _). exists (doc_of ex_dense), (restored (fun y => y) ex_dense ex_dense). split; [now apply dump_doc|]. split; [now apply (load_doc (fun _ => True))|].
  split; [reflexivity|]. rewrite numbers_restored. cbn [ex_dense numbers map app nth trip]. f_equal.
  replace (rne (1 / 10 ^ 7 * 10 ^ 6)) with 0%Z; [ring|]. symmetry. apply rne_unique. left. replace (1 / 10 ^ 7 * 10 ^ 6 - 0)%R with (/ 10)%R by field. rewrite Rabs_right by lra. lra.
Qed.
Definition ex_dmodel : dmodel := mkDM (txt "net") [ex_dense; quoted_layer (txt "relu")].
Example c43_ex_model : model_ok (fun _ => True) ex_dmodel /\ Forall2 same_class (m_layers ex_dmodel) (m_layers ex_dmodel) /\ m_layers ex_dmodel <> [] /\ ~ In quote (m_name ex_dmodel) /\ Forall file_layer (m_layers ex_dmodel).
Proof.
  destruct c43_ex_ok as (A & B & C & D). split; [|split; [|split; [discriminate|split; [vm_compute; intuition discriminate|]]]].
  - constructor; [auto|]. constructor; [|constructor]. split; [|constructor]. repeat split; try discriminate; repeat constructor; vm_compute; reflexivity.
  - constructor; [exact C|]. constructor; [reflexivity|constructor].
  - constructor; [exact D|]. constructor; [|constructor]. split; [|split; [|exact I]]; vm_compute; intuition discriminate.
Qed.

Print Assumptions c43_layer.
Print Assumptions c43_layer_exact.
Print Assumptions c43_model_file.
Print Assumptions c43_elu_alpha_refuted.
Print Assumptions c43_nonfinite_refuted.
Print Assumptions c43_quote_refuted.
Print Assumptions c43_wrong_class.
