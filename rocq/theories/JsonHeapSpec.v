(** What JSON documents do when every variable is a value of its own: the statements of
    JsonHeapModel on a list of documents, without memory. *)
From Verif Require Import Base StreamModel TypeModel JsonModel JsonHeapModel.
Local Open Scope list_scope.
Local Notation length := List.length.

(** *** Documents as values *)
Definition set_or_new (k : text) (x : json) (m : list (text * json)) : list (text * json) :=
  match find_key k m with Some _ => put_key k x m | None => new_key k x m end.
(** x.at(..)...at(..) *)
Fixpoint dat (d : json) (p : list jstep) : res json :=
  match p with
  | [] => Ok d
  | SIdx i :: p => match d with JList l => match nth_error l i with Some x => dat x p | None => Throw end | _ => Throw end
  | SKey k :: p => match d with JDict m => match find_key k m with Some x => dat x p | None => Throw end | _ => Throw end
  end.
(** The part at a place replaced. *)
Fixpoint put (d : json) (p : list jstep) (y : json) : json :=
  match p with
  | [] => y
  | SIdx i :: p => match d with JList l => match nth_error l i with Some x => JList (upd l i (put x p y)) | None => d end | _ => d end
  | SKey k :: p => match d with JDict m => match find_key k m with Some x => JDict (put_key k (put x p y) m) | None => d end | _ => d end
  end.
(** x\[..\]..\[..\]: missing keys are created, and whether all subscripts were possible. *)
Fixpoint touch (d : json) (p : list jstep) : json * bool :=
  match p with
  | [] => (d, true)
  | SIdx i :: p =>
      match d with
      | JList l => match nth_error l i with
                   | Some x => let '(x', b) := touch x p in (JList (upd l i x'), b)
                   | None => (d, false)
                   end
      | _ => (d, false)
      end
  | SKey k :: p =>
      match d with
      | JNull => let '(x', b) := touch JNull p in (JDict [(k, x')], b)
      | JDict m =>
          let '(x', b) := touch (match find_key k m with Some x => x | None => JNull end) p in
          (JDict (set_or_new k x' m), b)
      | _ => (d, false)
      end
  end.

(** Places in the list of variables. *)
Definition sat (docs : list json) (pl : place) : res json :=
  match nth_error docs (fst pl) with Some d => dat d (snd pl) | None => UB end.
Definition sput (docs : list json) (pl : place) (y : json) : list json :=
  match nth_error docs (fst pl) with Some d => upd docs (fst pl) (put d (snd pl) y) | None => docs end.

(** *** Statements *)
Definition stouch (docs : list json) (pl : place) : list json * bool :=
  match nth_error docs (fst pl) with
  | Some d => (upd docs (fst pl) (fst (touch d (snd pl))), snd (touch d (snd pl)))
  | None => (docs, false)
  end.
(** The effect of evaluating the right side, and whether it is possible. *)
Definition seval (docs : list json) (f : jfrom) : list json * bool :=
  match f with
  | FDoc d => (docs, true)
  | FSub pl => stouch docs pl
  | FAt pl => (docs, match sat docs pl with Ok _ => true | _ => false end)
  end.
(** The document on the right side. *)
Definition svalue (docs : list json) (f : jfrom) : res json :=
  match f with FDoc d => Ok d | FSub pl | FAt pl => sat docs pl end.
(** to = from; the document is taken when both places exist. *)
Definition sassign (docs : list json) (to : place) (f : jfrom) : list json * jout :=
  let '(docs1, b1) := seval docs f in
  if b1 then
    let '(docs2, b2) := stouch docs1 to in
    if b2 then match svalue docs2 f with Ok y => (sput docs2 to y, JDone) | _ => (docs2, JStuck) end
    else (docs2, JThrow)
  else (docs1, JThrow).
(** to.append(from) *)
Definition sappend (docs : list json) (to : place) (f : jfrom) : list json * jout :=
  let '(docs1, b1) := stouch docs to in
  if b1 then
    let '(docs2, b2) := seval docs1 f in
    if b2 then
      match svalue docs2 f, sat docs2 to with
      | Ok y, Ok JNull => (sput docs2 to (JList [y]), JDone)
      | Ok y, Ok (JList ds) => (sput docs2 to (JList (ds ++ [y])), JDone)
      | Ok y, Ok _ => (docs2, JThrow)
      | _, _ => (docs2, JStuck)
      end
    else (docs2, JThrow)
  else (docs1, JThrow).
Definition sget (docs : list json) (p : place) : jout :=
  match sat docs p with Ok d => JVal d | Throw => JThrow | UB => JStuck end.
Definition sexec (docs : list json) (c : jcmd) : list json * jout :=
  match c with JAssign t f => sassign docs t f | JAppend t f => sappend docs t f | JGet p => (docs, sget docs p) end.
Fixpoint srun (docs : list json) (cs : list jcmd) : list json * list jout :=
  match cs with
  | [] => (docs, [])
  | c :: cs => let '(docs1, o) := sexec docs c in let '(docs2, os) := srun docs1 cs in (docs2, o :: os)
  end.
(** Only variables below [n]. *)
Definition from_in (n : nat) (f : jfrom) : Prop := match f with FDoc _ => True | FSub p | FAt p => fst p < n end.
Definition cmd_in (n : nat) (c : jcmd) : Prop :=
  match c with JAssign t f | JAppend t f => fst t < n /\ from_in n f | JGet p => fst p < n end.
