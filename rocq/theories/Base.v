(** Base vocabulary: Python exceptions as values, the result monad, and
    small list helpers with Python indexing semantics.
    No /repo code is modelled here; this is the host-language layer
    (CPython semantics of exceptions and of list indexing). *)
From Coq Require Import List ZArith Bool Lia.
Import ListNotations.

(** The exceptions raised by /repo/curvepy or by the Python primitives it uses. *)
Inductive exn :=
| EExc        (* plain Exception(...) raised by curvepy *)
| EZeroDiv    (* ZeroDivisionError *)
| EIndex      (* IndexError *)
| EType       (* TypeError *)
| EValue      (* ValueError *)
| EOverflow   (* OverflowError *)
| EAssert     (* AssertionError *)
| EKey        (* KeyError *)
| EAttr       (* AttributeError *)
| EFuel.      (* model artefact: a loop did not finish within its fuel *)

Inductive res (A : Type) :=
| Ok (a : A)
| Err (e : exn).
Arguments Ok {A} a.
Arguments Err {A} e.

Definition rbind {A B} (r : res A) (f : A -> res B) : res B :=
  match r with Ok a => f a | Err e => Err e end.

Definition rmap {A B} (f : A -> B) (r : res A) : res B :=
  match r with Ok a => Ok (f a) | Err e => Err e end.

Declare Scope res_scope.
Delimit Scope res_scope with res.
Notation "'let!' x := e 'in' k" := (rbind e (fun x => k))
  (at level 200, x pattern, e at level 100, k at level 200, right associativity) : res_scope.
Open Scope res_scope.

Definition is_ok {A} (r : res A) : bool :=
  match r with Ok _ => true | Err _ => false end.

(** Map a partial function over a list, left to right, stopping at the first
    exception (Python list comprehension). *)
Fixpoint rmapM {A B} (f : A -> res B) (l : list A) : res (list B) :=
  match l with
  | [] => Ok []
  | a :: l' => let! b := f a in let! bs := rmapM f l' in Ok (b :: bs)
  end.

(** Python [l[i]] for an integer index: negative indexes count from the end,
    out of range raises IndexError. *)
Definition py_nth {A} (l : list A) (i : Z) : res A :=
  let n := Z.of_nat (length l) in
  let j := if (i <? 0)%Z then (i + n)%Z else i in
  if ((j <? 0) || (n <=? j))%Z%bool then Err EIndex
  else match nth_error l (Z.to_nat j) with
       | Some a => Ok a
       | None => Err EIndex
       end.

(** Python slice bound normalisation and [l[i:]], [l[:j]], [l[i:j]]. *)
Definition py_clip (n i : Z) : nat :=
  let j := if (i <? 0)%Z then (i + n)%Z else i in
  Z.to_nat (Z.max 0 (Z.min n j)).

Definition py_from {A} (l : list A) (i : Z) : list A :=
  skipn (py_clip (Z.of_nat (length l)) i) l.

Definition py_upto {A} (l : list A) (j : Z) : list A :=
  firstn (py_clip (Z.of_nat (length l)) j) l.

Definition py_slice {A} (l : list A) (i j : Z) : list A :=
  let a := py_clip (Z.of_nat (length l)) i in
  let b := py_clip (Z.of_nat (length l)) j in
  skipn a (firstn b l).

(** Last element ([l[-1]]) with a default. *)
Definition last_opt {A} (l : list A) : option A :=
  match rev l with [] => None | a :: _ => Some a end.

Definition head_opt {A} (l : list A) : option A :=
  match l with [] => None | a :: _ => Some a end.

(** Replace / insert at a position (Python [l[i] = v] and [l.insert(i, v)]
    for an in-range non-negative index). *)
Fixpoint list_set {A} (l : list A) (i : nat) (v : A) : list A :=
  match l, i with
  | [], _ => []
  | _ :: l', O => v :: l'
  | a :: l', S i' => a :: list_set l' i' v
  end.

Definition list_insert {A} (l : list A) (i : nat) (v : A) : list A :=
  firstn i l ++ v :: skipn i l.
