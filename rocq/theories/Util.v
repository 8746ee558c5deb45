(** curvepy/util.py: flatten and extend.

    Python's dicts are association lists with distinct keys in insertion
    order, keys are strings.  An argument of flatten is a tree: an [IIter] is
    any iterable that is not a string, bytes or a Mapping (a list, a tuple, a
    set in its iteration order, a generator in the order it yields); [IAtom]
    is anything that is not iterable.  Iterating is assumed to succeed. *)
From Coq Require Import List String Bool.
From Verif Require Import Base.
Import ListNotations.
Open Scope res_scope.

Section Dict.
Context {A : Type}.
Definition dict := list (string * A).
(* d.get(k) *)
Fixpoint dget (k : string) (d : dict) : option A :=
  match d with [] => None | (k', v) :: d' => if String.eqb k k' then Some v else dget k d' end.
(* d[k] = v: an existing key keeps its place, a new one goes last *)
Fixpoint dset (d : dict) (k : string) (v : A) : dict :=
  match d with
  | [] => [(k, v)]
  | (k', v') :: d' => if String.eqb k k' then (k', v) :: d' else (k', v') :: dset d' k v
  end.
(* del d[k], of a key that is there *)
Fixpoint ddel (d : dict) (k : string) : dict :=
  match d with [] => [] | (k', v') :: d' => if String.eqb k k' then d' else (k', v') :: ddel d' k end.
Definition keys (d : dict) : list string := map fst d.
(* util.py:32-33, the inner loop of extend *)
Definition dcopy (d other : dict) : dict := fold_left (fun d kv => dset d (fst kv) (snd kv)) other d.
End Dict.
Arguments dict A : clear implicits.

Section Flatten.
Context {A : Type}.
Inductive item :=
| INone
| IStr (s : string)        (* a str or bytes *)
| IMap (m : dict A)
| IAtom (a : A)
| IIter (l : list item).

(* util.py:6: isinstance(x, Iterable); None and the atoms are not *)
Definition is_iterable (x : item) : bool :=
  match x with IStr _ | IMap _ | IIter _ => true | INone | IAtom _ => false end.
Definition is_str (x : item) : bool := match x with IStr _ => true | _ => false end.
Definition is_map (x : item) : bool := match x with IMap _ => true | _ => false end.
Definition is_none (x : item) : bool := match x with INone => true | _ => false end.

(* util.py:9-18 _flatten, as the list of what it yields *)
Fixpoint flatten_ (items : item) : list item :=
  if is_none items || (is_str items || is_map items) || negb (is_iterable items) then [items]
  else
    match items with
    | IIter l =>
        (fix each (l : list item) : list item :=
           match l with
           | [] => []
           | x :: l' => (if is_iterable x && negb (is_str x) then flatten_ x else [x]) ++ each l'
           end) l
    | _ => []
    end.
(* util.py:5-6 flatten *)
Definition flatten (items : item) : list item := flatten_ items.

(* util.py:30-33: the loop of extend over the flattened others.  [None] is a
   primary that is Python's None: only an assignment to it raises.  The first
   component is primary after the loop, whether or not it raised. *)
Definition set_opt (p : option (dict A)) (k : string) (v : A) : option (dict A) * res unit :=
  match p with None => (None, Err EType) | Some d => (Some (dset d k v), Ok tt) end.
Fixpoint copy_into (p : option (dict A)) (m : dict A) : option (dict A) * res unit :=
  match m with
  | [] => (p, Ok tt)
  | (k, v) :: m' => match set_opt p k v with (p, Ok _) => copy_into p m' | r => r end
  end.
Fixpoint extend_loop (p : option (dict A)) (others : list item) : option (dict A) * res unit :=
  match others with
  | [] => (p, Ok tt)
  | INone :: os => extend_loop p os
  | IMap m :: os => match copy_into p m with (p, Ok _) => extend_loop p os | r => r end
  | _ :: _ => (p, Err EAttr)
  end.
(* util.py:21-34 extend.  Answers with primary as the caller sees it
   afterwards, and what is returned. *)
Definition extend (primary : option (dict A)) (others : list item) (in_place : bool)
    : option (dict A) * res (option (dict A)) :=
  let others := flatten (IIter others) in
  let start := if in_place then primary else Some (match primary with None => [] | Some d => d end) in
  let '(p, r) := extend_loop start others in
  (if in_place then p else primary, let! _ := r in Ok p).
End Flatten.
Arguments item A : clear implicits.
