(** Model of how the library adapts to the functions it is given:
    count_positional_args (/repo/curvepy/curve.py:1062-1073 and util.py:36-47),
    the constructors and calls of Map (map.py:9-24, 56-60) and AccumulatorMap
    (accumulator_map.py:8-40, 64-68), and the callbacks of observers
    (curve.py:404-409, 436-440, 458-462).

    A function is known by what inspect and a call can see of it: whether it is
    callable, whether inspect.isbuiltin says so, and its parameters.  [bind] is
    Python's rule for a call with positional arguments only.

    Simplifications.
    - What the function computes is left out: the result of a call is the
      binding of its parameters, or TypeError.
    - inspect.signature of a function that is not built in may fail (ValueError);
      such functions have no parameter list here. *)
From Coq Require Import List Arith Bool.
From Verif Require Import Base.
Import ListNotations.

Section Callables.
Context {A : Type}.

(** inspect.Parameter.kind and whether there is a default *)
Inductive kind := PosOnly | PosOrKw | VarPos | KwOnly | VarKw.
Record param := mkParam { p_kind : kind; p_default : bool }.
Inductive fn :=
| NotCallable
| Builtin (ps : list param)
| Plain (ps : list param)
| Opaque.

Definition positional (p : param) : bool := match p_kind p with PosOnly | PosOrKw => true | _ => false end.

(** ** Python calls *)
(** The parameters from left to right, with the arguments that are left: what
    each positional parameter gets ([None]: its default), and what the variadic
    one gets. *)
Fixpoint bind (ps : list param) (args : list A) : res (list (option A) * list A) :=
  match ps with
  | [] => match args with [] => Ok ([], []) | _ => Err EType end
  | p :: ps =>
      match p_kind p with
      | PosOnly | PosOrKw =>
          match args with
          | a :: args => let! (ys, r) := bind ps args in Ok (Some a :: ys, r)
          | [] => if p_default p then let! (ys, r) := bind ps [] in Ok (None :: ys, r) else Err EType
          end
      | VarPos => let! (ys, _) := bind ps [] in Ok (ys, args)
      | KwOnly => if p_default p then bind ps args else Err EType
      | VarKw => bind ps args
      end
  end.
Definition call (f : fn) (args : list A) : res (list (option A) * list A) :=
  match f with
  | Plain ps | Builtin ps => bind ps args
  | NotCallable | Opaque => Err EType
  end.

(** ** The code *)
(* curve.py:1062-1073, util.py:36-47 count_positional_args *)
Definition count_positional_args (f : fn) (default : nat) : res nat :=
  match f with
  | NotCallable => Err EExc
  | Builtin _ => Ok default
  | Opaque => Err EValue
  | Plain ps => Ok (fold_left (fun count p => if positional p then S count else count) ps 0)
  end.

(* map.py:17-20, accumulator_map.py:25-28: does the function take x as well? *)
Definition adapt (f : fn) : res bool :=
  let! tfm_args := count_positional_args f 1 in
  if (tfm_args =? 0) || (2 <? tfm_args) then Err EExc else Ok (1 <? tfm_args).
(* map.py:56-60 _map, accumulator_map.py:64-68 _accumulator_map *)
Definition apply_map (f : fn) (with_x : bool) (x y : A) : res (list (option A) * list A) :=
  if with_x then call f [x; y] else call f [y].

(* curve.py:404-409 add_observer: does the callback take the interval? *)
Definition wants_interval (f : fn) : res bool :=
  let! n := count_positional_args f 1 in Ok (n =? 1).
(* curve.py:436-440 begin_update, 458-462 end_update *)
Definition notify (f : fn) (with_interval : bool) (d : A) : res (list (option A) * list A) :=
  if with_interval then call f [d] else call f [].
End Callables.
