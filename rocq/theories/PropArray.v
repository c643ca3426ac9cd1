(** C20: strided copies. *)
From Verif Require Import Base ArrayModel ArraySpec ArrayProofs.

(** append writes the block at its place along the axis and nothing else; any rank. *)
Theorem c20_append_places_block :
  forall (T : Type) (d0 : T) (dst src : list T) pre a b post off,
    off + b <= a ->
    length dst = prod (pre ++ a :: post) ->
    length src = prod (pre ++ b :: post) ->
    exists dst',
      append dst (pre ++ a :: post) src b (length pre) off = Ok dst' /\
      length dst' = length dst /\
      forall ip x iq, inb pre ip -> x < a -> inb post iq ->
        at_ d0 (pre ++ a :: post) dst' (ip ++ x :: iq) =
        if (off <=? x) && (x <? off + b)
        then at_ d0 (pre ++ b :: post) src (ip ++ (x - off) :: iq)
        else at_ d0 (pre ++ a :: post) dst (ip ++ x :: iq).
Proof.
  intros T d0 dst src pre a b post off Ho Hd Hs.
  destruct (append_at_spec d0 dst src pre a b post off 0) as (d & E & L & S & _); try lia.
  exists d. exact (conj E (conj L S)).
Qed.
Print Assumptions c20_append_places_block.

(** extract reads the block back, whatever its destination held. *)
Theorem c20_extract_after_append :
  forall (T : Type) (dst buf src : list T) pre a b post off,
    off + b <= a ->
    length dst = prod (pre ++ a :: post) ->
    length src = prod (pre ++ b :: post) ->
    length buf = prod (pre ++ b :: post) ->
    exists dst',
      append dst (pre ++ a :: post) src b (length pre) off = Ok dst' /\
      extract buf (pre ++ b :: post) dst' a (length pre) off = Ok src.
Proof.
  intros T dst buf src pre a b post off Ho Hd Hs Hb.
  destruct src as [|d0 src'].
  - destruct dst as [|d0 dst'].
    + destruct buf as [|d0 buf'].
      * exists []. unfold append, append_at, extract, extract_at.
        rewrite !axis_products_spec, !rd_axis. cbn [bind].
        rewrite prod_app in Hd, Hs. simpl in Hd, Hs.
        split; rewrite for_nested.
        -- replace (prod pre * (prod post * b)) with 0 by nia. reflexivity.
        -- replace (prod pre * (prod post * b)) with 0 by nia. reflexivity.
      * simpl in *. lia.
    + apply (extract_append d0); simpl in *; lia.
  - apply (extract_append d0); simpl in *; lia.
Qed.
Print Assumptions c20_extract_after_append.

(** Two cubes, every axis: each element is where its own coordinates say. *)
Theorem c20_concatenate_places_elements :
  forall (T : Type) (d0 : T) (dst src1 src2 : list T) pre a b post,
    length (pre ++ a :: post) = 3 ->
    length dst = prod (pre ++ (a + b) :: post) ->
    length src1 = prod (pre ++ a :: post) ->
    length src2 = prod (pre ++ b :: post) ->
    exists dst',
      concatenate2 dst src1 (pre ++ a :: post) src2 (pre ++ b :: post) (length pre) = Ok dst' /\
      length dst' = length dst /\
      forall ip x iq, inb pre ip -> x < a + b -> inb post iq ->
        at_ d0 (pre ++ (a + b) :: post) dst' (ip ++ x :: iq) =
        if x <? a then at_ d0 (pre ++ a :: post) src1 (ip ++ x :: iq)
        else at_ d0 (pre ++ b :: post) src2 (ip ++ (x - a) :: iq).
Proof. exact @concatenate2_spec. Qed.
Print Assumptions c20_concatenate_places_elements.

Theorem c20_separate_inverts_concatenate :
  forall (T : Type) (d0 : T) (dst src1 src2 b1 b2 : list T) pre a b post,
    length (pre ++ a :: post) = 3 ->
    length dst = prod (pre ++ (a + b) :: post) ->
    length src1 = prod (pre ++ a :: post) -> length b1 = length src1 ->
    length src2 = prod (pre ++ b :: post) -> length b2 = length src2 ->
    exists dst',
      concatenate2 dst src1 (pre ++ a :: post) src2 (pre ++ b :: post) (length pre) = Ok dst' /\
      separate2 b1 (pre ++ a :: post) b2 (pre ++ b :: post) dst' (length pre) = Ok (src1, src2).
Proof. exact @separate2_concatenate2. Qed.
Print Assumptions c20_separate_inverts_concatenate.

(** N cubes packed one after the other. *)
Theorem c20_concatenateN_places_elements :
  forall (T : Type) (d0 : T) (dst src : list T) pre post bs,
    bs <> [] -> length pre < 3 ->
    length dst = prod (pre ++ sumn bs :: post) ->
    length src = sumn (map (fun b => prod (pre ++ b :: post)) bs) ->
    exists dst',
      concatenateN dst src (map (fun b => pre ++ b :: post) bs) (length pre) = Ok dst' /\
      length dst' = length dst /\
      forall k ip x iq, k < length bs -> inb pre ip -> x < nth k bs 0 -> inb post iq ->
        at_ d0 (pre ++ sumn bs :: post) dst' (ip ++ (sumn (firstn k bs) + x) :: iq) =
        at_ d0 (pre ++ nth k bs 0 :: post)
          (skipn (sumn (map (fun b => prod (pre ++ b :: post)) (firstn k bs))) src)
          (ip ++ x :: iq).
Proof. exact @concatenateN_spec. Qed.
Print Assumptions c20_concatenateN_places_elements.

Theorem c20_separateN_inverts_concatenateN :
  forall (T : Type) (d0 : T) (dst src buf : list T) pre post bs,
    bs <> [] -> length pre < 3 ->
    length dst = prod (pre ++ sumn bs :: post) ->
    length src = sumn (map (fun b => prod (pre ++ b :: post)) bs) ->
    length buf = length src ->
    exists dst',
      concatenateN dst src (map (fun b => pre ++ b :: post) bs) (length pre) = Ok dst' /\
      separateN buf (map (fun b => pre ++ b :: post) bs) dst' (length pre) = Ok src.
Proof. exact @separateN_concatenateN. Qed.
Print Assumptions c20_separateN_inverts_concatenateN.

(** Shape errors are reported, not executed. *)
Theorem c20_bad_axis_throws :
  forall (T : Type) (dst src1 src2 : list T) sh1 sh2 axis,
    3 <= axis -> concatenate2 dst src1 sh1 src2 sh2 axis = Throw.
Proof.
  intros T dst src1 src2 sh1 sh2 axis H. unfold concatenate2.
  destruct (Nat.ltb_spec axis 3); [lia|reflexivity].
Qed.
Print Assumptions c20_bad_axis_throws.

(** The hypotheses are met by real cases: a 2x1x2 and a 2x2x2 cube joined on axis 1. *)
Example c20_example :
  concatenate2 (repeat 0 12) [1; 2; 3; 4] [2; 1; 2] [11; 12; 13; 14; 15; 16; 17; 18] [2; 2; 2] 1
    = Ok [1; 2; 11; 12; 13; 14; 3; 4; 15; 16; 17; 18] /\
  separate2 (repeat 0 4) [2; 1; 2] (repeat 0 8) [2; 2; 2]
    [1; 2; 11; 12; 13; 14; 3; 4; 15; 16; 17; 18] 1
    = Ok ([1; 2; 3; 4], [11; 12; 13; 14; 15; 16; 17; 18]).
Proof. vm_compute. auto. Qed.

Example c20_example_hyps :
  exists pre a b post, pre = [2] /\ post = [2] /\ a = 1 /\ b = 2 /\
    length (pre ++ a :: post) = 3 /\ prod (pre ++ (a + b) :: post) = 12 /\ length pre = 1.
Proof. exists [2], 1, 2, [2]. repeat split. Qed.

Example c20_exampleN :
  concatenateN (repeat 0 8) [1; 2; 3; 4; 5; 6; 7; 8] [[2; 1; 1]; [2; 2; 1]; [2; 1; 1]] 1
  = Ok [1; 3; 4; 7; 2; 5; 6; 8].
Proof. vm_compute. reflexivity. Qed.
