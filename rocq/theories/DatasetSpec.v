(** Specification vocabulary for datasets: rows as blocks of consecutive values. *)
From Verif Require Import Base DatasetModel.
From Coq Require Export Sorted Permutation.

(** The [i]-th block of [n] consecutive values of [l]. *)
Definition block {T} (n : nat) (l : list T) (i : nat) : list T := firstn n (skipn (i * n) l).

(** All rows of a dataset, in order. *)
Definition rows {T} (d : dataset T) : list (list T) :=
  tab (ds_size d) (block (fsize d) (data d)).

(** The class invariant. *)
Record wf {T} (d : dataset T) : Prop := {
  wf_data : length (data d) = famount d * fsize d;
  wf_dsize : dsize d = length (data d);
  wf_seq : famount d = samount d * ssize d;
  wf_sorted : StronglySorted lt (labels_i d);
  wf_labels : Forall (fun c => c < fsize d) (labels_i d);
  wf_inputs : forall c, In c (input_i d) <-> c < fsize d /\ ~ In c (labels_i d);
  wf_inputs_sorted : StronglySorted lt (input_i d)
}.

(** [m] is the smallest element of the (non-empty) list [l]. *)
Definition is_min (m : nat) (l : list nat) : Prop := In m l /\ forall x, In x l -> m <= x.
