(** JSON documents as the objects they are in memory: items that point to shared objects, with
    the copying and writing of /repo/source/parser/json.hpp. JsonModel has the documents as
    plain values. *)
From Verif Require Import Base StreamModel TypeModel JsonModel.
Local Open Scope list_scope.

(** JsonObject::JsonType, 68-74 *)
Inductive jtype := JtLeaf | JtList | JtDict | JtNone.
(** JsonItem: _json_type and the pointer _value (an address), 163-464. The constructor from a
    JsonObject reference (178-181), used nowhere, is left out. *)
Record item := mkItem { i_type : jtype; i_value : option nat }.
Definition null_item : item := mkItem JtNone None.
(** What _value points to: JsonLeaf (470), JsonList (673), JsonDict (905; a std::map in the
    order of its keys). *)
Inductive obj := OLeaf (v : text) (t : ftype) | OList (l : list item) | ODict (m : list (text * item)).
Definition otype (o : obj) : jtype := match o with OLeaf _ _ => JtLeaf | OList _ => JtList | ODict _ => JtDict end.

(** The variables of type JsonItem and the memory. Memory is not given back: an object that
    nothing points to cannot be observed. *)
Record jstate := mkJ { j_vars : list item; j_cells : list obj }.
Definition push (s : jstate) (o : obj) : jstate := mkJ (j_vars s) (j_cells s ++ [o]).

(** *** std::map<std::string, V> *)
Section Map.
Context {V : Type}.
Fixpoint find_key (k : text) (m : list (text * V)) : option V :=
  match m with [] => None | (k', x) :: m => if text_eqb k k' then Some x else find_key k m end.
(** The value of a key that is there is replaced. *)
Fixpoint put_key (k : text) (x : V) (m : list (text * V)) : list (text * V) :=
  match m with [] => [] | (k', y) :: m => if text_eqb k k' then (k', x) :: m else (k', y) :: put_key k x m end.
(** A key that is not there is inserted before the first larger one. *)
Fixpoint new_key (k : text) (x : V) (m : list (text * V)) : list (text * V) :=
  match m with
  | [] => [(k, x)]
  | (k', y) :: m' => match text_cmp k k' with Gt => (k', y) :: new_key k x m' | _ => (k, x) :: m end
  end.
End Map.

(** *** References to items: a variable, an entry of a list, a value of a dictionary *)
Inductive loc := LVar (x : nat) | LIdx (a i : nat) | LKey (a : nat) (k : text).
Definition load (s : jstate) (l : loc) : option item :=
  match l with
  | LVar x => nth_error (j_vars s) x
  | LIdx a i => match nth_error (j_cells s) a with Some (OList its) => nth_error its i | _ => None end
  | LKey a k => match nth_error (j_cells s) a with Some (ODict m) => find_key k m | _ => None end
  end.
Definition store (s : jstate) (l : loc) (i' : item) : option jstate :=
  match load s l with
  | None => None
  | Some _ =>
      match l with
      | LVar x => Some (mkJ (upd (j_vars s) x i') (j_cells s))
      | LIdx a i =>
          match nth_error (j_cells s) a with
          | Some (OList its) => Some (mkJ (j_vars s) (upd (j_cells s) a (OList (upd its i i'))))
          | _ => None
          end
      | LKey a k =>
          match nth_error (j_cells s) a with
          | Some (ODict m) => Some (mkJ (j_vars s) (upd (j_cells s) a (ODict (put_key k i' m))))
          | _ => None
          end
      end
  end.

(** The loops over the items of a list or a map: the memory is threaded through. *)
Section Thread.
Context {A B : Type}.
Variable f : list obj -> A -> option (list obj * B).
Fixpoint thread (h : list obj) (l : list A) : option (list obj * list B) :=
  match l with
  | [] => Some (h, [])
  | x :: l =>
      match f h x with
      | None => None
      | Some (h, y) => match thread h l with None => None | Some (h, ys) => Some (h, y :: ys) end
      end
  end.
End Thread.
(** Copy constructor, 1192-1223: new objects all the way down (the copies of a JsonList and a
    JsonDict copy their items). [n] bounds the depth; [None]: deeper, or a dangling pointer. *)
Fixpoint copy (n : nat) (h : list obj) (it : item) : option (list obj * item) :=
  match n with
  | 0 => None
  | S n =>
      match i_value it with
      | None => Some (h, mkItem (i_type it) None)
      | Some a =>
          match nth_error h a with
          | None => None
          | Some (OLeaf v t) => Some (h ++ [OLeaf v t], mkItem (i_type it) (Some (length h)))
          | Some (OList its) =>
              match thread (copy n) h its with
              | None => None
              | Some (h', its') => Some (h' ++ [OList its'], mkItem (i_type it) (Some (length h')))
              end
          | Some (ODict m) =>
              match thread (copy n) h (map snd m) with
              | None => None
              | Some (h', its') => Some (h' ++ [ODict (combine (map fst m) its')], mkItem (i_type it) (Some (length h')))
              end
          end
      end
  end.
(** Enough for any document in the memory [h]. *)
Definition deep (h : list obj) : nat := S (length h).

(** What the constant member functions (at, size, the conversions, printing, ==) see. *)
Fixpoint all_some {A} (l : list (option A)) : option (list A) :=
  match l with
  | [] => Some []
  | Some x :: l => match all_some l with Some xs => Some (x :: xs) | None => None end
  | None :: _ => None
  end.
Fixpoint decode (n : nat) (h : list obj) (it : item) : option json :=
  match n with
  | 0 => None
  | S n =>
      match i_value it with
      | None => Some JNull
      | Some a =>
          match nth_error h a with
          | None => None
          | Some (OLeaf v t) => Some (JLeaf v t)
          | Some (OList its) => option_map JList (all_some (map (decode n h) its))
          | Some (ODict m) => option_map (fun ds => JDict (combine (map fst m) ds)) (all_some (map (decode n h) (map snd m)))
          end
      end
  end.

(** A temporary made from a leaf, a vector, a map, nested: 190-250, 1146-1190. It is never
    [None]. *)
Fixpoint build (h : list obj) (d : json) : option (list obj * item) :=
  match d with
  | JNull => Some (h, null_item)
  | JLeaf v t => Some (h ++ [OLeaf v t], mkItem JtLeaf (Some (length h)))
  | JList ds =>
      match thread build h ds with
      | None => None
      | Some (h', its) => Some (h' ++ [OList its], mkItem JtList (Some (length h')))
      end
  | JDict m =>
      match thread (fun h (p : text * json) => build h (snd p)) h m with
      | None => None
      | Some (h', its) => Some (h' ++ [ODict (combine (map fst m) its)], mkItem JtDict (Some (length h')))
      end
  end.

(** *** Subscripts. On an exception the state is what was done before it. *)
(** operator\[\](idx), 1233-1258, 761-769; a negative int is converted to a large index. *)
Definition sub_idx (s : jstate) (l : loc) (i : nat) : jstate * res loc :=
  match load s l with
  | None => (s, UB)
  | Some it =>
      match i_value it with
      | None => (s, Throw)
      | Some a =>
          match nth_error (j_cells s) a with
          | None => (s, UB)
          | Some (OList its) => (s, if i <? length its then Ok (LIdx a i) else Throw)
          | Some _ => (s, Throw)
          end
      end
  end.
(** if (!_value || _json_type == NONE): 1262-1266, 1343-1347; the address of the object. *)
Definition ensure (o : obj) (s : jstate) (l : loc) : option (jstate * nat) :=
  match load s l with
  | None => None
  | Some it =>
      let fresh := match store (push s o) l (mkItem (otype o) (Some (length (j_cells s)))) with
                   | Some s' => Some (s', length (j_cells s))
                   | None => None
                   end in
      match i_type it, i_value it with
      | JtNone, _ => fresh
      | _, None => fresh
      | _, Some a => Some (s, a)
      end
  end.
(** operator\[\](key), 1260-1285, 1010-1013 *)
Definition sub_key (s : jstate) (l : loc) (k : text) : jstate * res loc :=
  match ensure (ODict []) s l with
  | None => (s, UB)
  | Some (s, a) =>
      match nth_error (j_cells s) a with
      | None => (s, UB)
      | Some (ODict m) =>
          (match find_key k m with
           | Some _ => s
           | None => mkJ (j_vars s) (upd (j_cells s) a (ODict (new_key k null_item m)))
           end, Ok (LKey a k))
      | Some _ => (s, Throw)
      end
  end.
Inductive jstep := SIdx (i : nat) | SKey (k : text).
Fixpoint walk (s : jstate) (l : loc) (p : list jstep) : jstate * res loc :=
  match p with
  | [] => (s, Ok l)
  | q :: p =>
      match (match q with SIdx i => sub_idx s l i | SKey k => sub_key s l k end) with
      | (s', Ok l') => walk s' l' p
      | r => r
      end
  end.
(** at(idx) 1287-1312 and 777-785, at(key) 1314-1339 and 994-1002: nothing is created. *)
Definition at_step (s : jstate) (l : loc) (q : jstep) : res loc :=
  match load s l with
  | None => UB
  | Some it =>
      match i_value it with
      | None => Throw
      | Some a =>
          match nth_error (j_cells s) a, q with
          | Some (OList its), SIdx i => if i <? length its then Ok (LIdx a i) else Throw
          | Some (ODict m), SKey k => match find_key k m with Some _ => Ok (LKey a k) | None => Throw end
          | Some _, _ => Throw
          | None, _ => UB
          end
      end
  end.
Fixpoint walk_at (s : jstate) (l : loc) (p : list jstep) : res loc :=
  match p with [] => Ok l | q :: p => l' <- at_step s l q ;; walk_at s l' p end.

(** *** Statements *)
(** A variable with subscripts. *)
Definition place : Type := nat * list jstep.
(** The right side: a temporary, x\[..\]..\[..\], x.at(..)...at(..). *)
Inductive jfrom := FDoc (d : json) | FSub (p : place) | FAt (p : place).
Inductive rval := RTmp (it : item) | RLoc (l : loc).
Definition eval (s : jstate) (f : jfrom) : jstate * res rval :=
  match f with
  | FDoc d => match build (j_cells s) d with
              | Some (h, it) => (mkJ (j_vars s) h, Ok (RTmp it)) | None => (s, UB)
              end
  | FSub (x, p) => match walk s (LVar x) p with
                   | (s', Ok l) => (s', Ok (RLoc l)) | (s', Throw) => (s', Throw) | (s', UB) => (s', UB)
                   end
  | FAt (x, p) => (s, l <- walk_at s (LVar x) p ;; Ok (RLoc l))
  end.
Definition value_of (s : jstate) (r : rval) : option item := match r with RTmp it => Some it | RLoc l => load s l end.
Definition copied (s : jstate) (r : rval) : option (jstate * item) :=
  match value_of s r with
  | None => None
  | Some it => match copy (deep (j_cells s)) (j_cells s) it with
               | Some (h, it') => Some (mkJ (j_vars s) h, it')
               | None => None
               end
  end.

Inductive jcmd := JAssign (to : place) (f : jfrom) | JAppend (to : place) (f : jfrom) | JGet (p : place).
Inductive jout := JDone | JVal (d : json) | JThrow | JStuck.

(** to = from, 1225-1231. The right operand is evaluated first (C++17). *)
Definition jassign (s : jstate) (to : place) (f : jfrom) : jstate * jout :=
  match eval s f with
  | (s1, Ok r) =>
      match walk s1 (LVar (fst to)) (snd to) with
      | (s2, Ok l) =>
          match copied s2 r with
          | Some (s3, it) => match store s3 l it with Some s4 => (s4, JDone) | None => (s3, JStuck) end
          | None => (s2, JStuck)
          end
      | (s2, Throw) => (s2, JThrow)
      | (s2, UB) => (s2, JStuck)
      end
  | (s1, Throw) => (s1, JThrow)
  | (s1, UB) => (s1, JStuck)
  end.
(** to.append(from), 1341-1366, 791-794. The object expression is evaluated first, then the
    parameter is copied. Copies of that copy, which nobody else sees, are left out. *)
Definition jappend (s : jstate) (to : place) (f : jfrom) : jstate * jout :=
  match walk s (LVar (fst to)) (snd to) with
  | (s1, Ok l) =>
      match eval s1 f with
      | (s2, Ok r) =>
          match copied s2 r with
          | None => (s2, JStuck)
          | Some (s3, it) =>
              match ensure (OList []) s3 l with
              | None => (s3, JStuck)
              | Some (s4, a) =>
                  match nth_error (j_cells s4) a with
                  | Some (OList its) => (mkJ (j_vars s4) (upd (j_cells s4) a (OList (its ++ [it]))), JDone)
                  | Some _ => (s4, JThrow)
                  | None => (s4, JStuck)
                  end
              end
          end
      | (s2, Throw) => (s2, JThrow)
      | (s2, UB) => (s2, JStuck)
      end
  | (s1, Throw) => (s1, JThrow)
  | (s1, UB) => (s1, JStuck)
  end.
Definition jget (s : jstate) (p : place) : jstate * jout :=
  (s, match walk_at s (LVar (fst p)) (snd p) with
      | Ok l => match load s l with
                | Some it => match decode (deep (j_cells s)) (j_cells s) it with Some d => JVal d | None => JStuck end
                | None => JStuck
                end
      | Throw => JThrow
      | UB => JStuck
      end).
Definition jexec (s : jstate) (c : jcmd) : jstate * jout :=
  match c with JAssign t f => jassign s t f | JAppend t f => jappend s t f | JGet p => jget s p end.
Fixpoint jrun (s : jstate) (cs : list jcmd) : jstate * list jout :=
  match cs with
  | [] => (s, [])
  | c :: cs => let '(s1, o) := jexec s c in let '(s2, os) := jrun s1 cs in (s2, o :: os)
  end.
(** [n] variables declared: JsonItem x; *)
Definition jstart (n : nat) : jstate := mkJ (repeat null_item n) [].
