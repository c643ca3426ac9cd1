(** Thread versions of the dense kernels (dlmath.hpp): the tasks. *)
From Verif Require Import Base Num Conc.

Section Tasks.
Context {T : Type} `{NumOps T}.

(** Array numbers. *)
Definition DST := 0. Definition SRC := 1. Definition WTS := 2. Definition BIAS := 3.
Definition IG := 4. Definition WG := 5. Definition BG := 6. Definition GRAD := 7.

(** [a\[i\] += f]: load then store. *)
Definition incr (l : cloc) (v : T) (p : prog T) : prog T := Load l (fun c => Store l (nadd c v) p).

(** Task of dense_thread_opt, dlmath.hpp 1811-1819. *)
Fixpoint dense_task_loop (inp o n j : nat) : prog T :=
  match n with
  | O => Done
  | S n' =>
      Load (WTS, o * inp + j) (fun w => Load (SRC, j) (fun x =>
        incr (DST, o) (nmul w x) (dense_task_loop inp o n' (S j))))
  end.
Definition dense_task (inp o : nat) : prog T :=
  Load (BIAS, o) (fun b => Store (DST, o) b (dense_task_loop inp o inp 0)).

(** The tasks of dense_thread_opt, dlmath.hpp 1801-1823. *)
Definition dense_tasks (inp out : nat) : list (prog T) := tab out (dense_task inp).

(** Task of dense_1_thread_opt, dlmath.hpp 1886-1895. *)
Fixpoint dense_1_task_loop (inp o n j : nat) : prog T :=
  match n with
  | O => Done
  | S n' =>
      Load (GRAD, o) (fun g => Load (SRC, j) (fun x =>
        incr (WG, o * inp + j) (nmul g x)
          (Load (GRAD, o) (fun g => Load (WTS, o * inp + j) (fun w =>
            incr (IG, j) (nmul g w) (dense_1_task_loop inp o n' (S j)))))))
  end.
Definition dense_1_task (inp o : nat) : prog T :=
  Load (GRAD, o) (fun g => incr (BG, o) g (dense_1_task_loop inp o inp 0)).

(** The tasks of dense_1_thread_opt, dlmath.hpp 1874-1899, after std::fill. *)
Definition dense_1_tasks (inp out : nat) : list (prog T) := tab out (dense_1_task inp).

(** The arrays behind the pointers of dense_thread_opt. *)
Definition fwd_arrs (dst src w bias : list T) (a : nat) : list T :=
  match a with 0 => dst | 1 => src | 2 => w | 3 => bias | _ => [] end.
(** The arrays of dense_1_thread_opt after std::fill (dlmath.hpp 1880): the first [inp] input
    gradients are 0. *)
Definition bwd_arrs (ig wg bg g last w : list T) (inp : nat) (a : nat) : list T :=
  match a with
  | 1 => last | 2 => w | 4 => tab inp (fun _ => n0) ++ skipn inp ig | 5 => wg | 6 => bg | 7 => g
  | _ => [] end.
End Tasks.

(** Memory holding the arrays [arrs]. *)
Definition mem_of {T} (d : T) (arrs : nat -> list T) : cmem T :=
  fun l => nth (snd l) (arrs (fst l)) d.
(** The first [n] cells of array [a]. *)
Definition array_of {T} (m : cmem T) (a n : nat) : list T := tab n (fun i => m (a, i)).


(** Executions in which each [input_gradients\[j\] += v] is indivisible: an access to an
    input gradient is followed at once by the same task's next one. *)
Definition touches {T} (p : prog T) (a : nat) : Prop :=
  match p with Done => False | Load l _ => fst l = a | Store l _ _ => fst l = a end.
Inductive asteps {T} (sz : nat -> nat) : list (prog T) * cmem T -> list (prog T) * cmem T -> Prop :=
| as_refl : forall s, asteps sz s s
| as_one : forall s ps i p p' m m', asteps sz s (ps, m) -> nth_error ps i = Some p ->
    pstep sz p m p' m' -> ~ touches p IG -> asteps sz s (upd ps i p', m')
| as_pair : forall s ps i p p1 p2 m m1 m2, asteps sz s (ps, m) -> nth_error ps i = Some p ->
    touches p IG -> pstep sz p m p1 m1 -> pstep sz p1 m1 p2 m2 -> asteps sz s (upd ps i p2, m2).
