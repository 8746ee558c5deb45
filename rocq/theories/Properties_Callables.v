(** * C66: the functions handed to the library are called with what they take *)
From Coq Require Import List Arith Bool Lia.
From Verif Require Import Base Callables CallablesFacts.
Import ListNotations.

(** A call with positional arguments binds exactly when Python says it does:
    enough for the required parameters, no more than the positional ones unless
    there is *args, and no required keyword. *)
Theorem C66_python : forall A ps, signature ps -> forall args : list A,
  (exists v, bind ps args = Ok v) <->
  length (filter required ps) <= length args /\
  (length args <= length (filter positional ps) \/ 0 < length (filter variadic ps)) /\
  length (filter kw_required ps) = 0.
Proof. exact (fun A => bind_iff (A := A)). Qed.
Print Assumptions C66_python.
Example C66_python_ex :
  let ps := [mkParam PosOrKw false; mkParam PosOrKw true; mkParam VarPos false; mkParam KwOnly true] in
  signature ps /\ bind ps [1; 2; 3] = Ok ([Some 1; Some 2], [3]) /\ bind ps [1] = Ok ([Some 1; None], []) /\ bind (A := nat) ps [] = Err EType.
Proof.
  split; [ | repeat split ]. apply sg_req; [ reflexivity.. | ]. apply sg_opt, of_opt; [ reflexivity.. | ].
  apply of_rest, rf_var, tf_kw, tf_nil.
Qed.

(** A function of exactly one argument is called with the value, a function of
    exactly two with the position and the value, by Map and AccumulatorMap. *)
Theorem C66_exact : forall A ps n, signature ps -> (forall k, accepts ps k <-> k = n) -> n = 1 \/ n = 2 ->
  forall x y : A, exists w r, adapt (Plain ps) = Ok w /\
    apply_map (Plain ps) w x y = Ok ((if n =? 1 then [Some y] else [Some x; Some y]), r).
Proof. exact (fun A => map_exact (A := A)). Qed.
Print Assumptions C66_exact.
Example C66_exact_ex : let ps := [mkParam PosOrKw false; mkParam PosOnly false; mkParam KwOnly true; mkParam VarKw false] in
  (forall k, accepts ps k <-> k = 2) /\ adapt (Plain ps) = Ok true /\ apply_map (Plain ps) true 7 9 = Ok ([Some 7; Some 9], []).
Proof. repeat split; unfold accepts in *; cbn in *; lia. Qed.

(** Once constructed over a function without required keywords, no call fails to bind. *)
Theorem C66_binds : forall A ps w (x y : A), signature ps -> length (filter kw_required ps) = 0 -> adapt (Plain ps) = Ok w ->
  exists v, apply_map (Plain ps) w x y = Ok v.
Proof. exact (fun A => map_binds (A := A)). Qed.
Print Assumptions C66_binds.
Example C66_binds_ex : adapt (Plain [mkParam PosOrKw false; mkParam VarPos false]) = Ok false /\
  apply_map (Plain [mkParam PosOrKw false; mkParam VarPos false]) false 7 9 = Ok ([Some 9], []).
Proof. split; reflexivity. Qed.

(** What is refused: anything that is not callable or has no signature, and
    functions without or with more than two positional parameters. *)
Theorem C66_refused : forall f, (exists e, adapt f = Err e) <->
  match f with NotCallable | Opaque => True | Builtin _ => False
  | Plain ps => length (filter positional ps) = 0 \/ 2 < length (filter positional ps) end.
Proof. exact adapt_raises. Qed.
Print Assumptions C66_refused.
Example C66_refused_ex : adapt (Plain [mkParam PosOrKw false; mkParam PosOrKw true; mkParam PosOrKw true]) = Err EExc /\ adapt NotCallable = Err EExc.
Proof. split; reflexivity. Qed.

(** Observers: a callback of no argument is called without, one of exactly one
    argument with the interval. *)
Theorem C66_observer : forall A ps n, signature ps -> (forall k, accepts ps k <-> k = n) -> n <= 1 ->
  forall d : A, exists w r, wants_interval (Plain ps) = Ok w /\
    notify (Plain ps) w d = Ok ((if n =? 1 then [Some d] else []), r).
Proof. exact (fun A => notify_exact (A := A)). Qed.
Print Assumptions C66_observer.
Example C66_observer_ex : wants_interval (Plain [mkParam PosOrKw false]) = Ok true /\ notify (Plain [mkParam PosOrKw false]) true 5 = Ok ([Some 5], []) /\
  wants_interval (Plain []) = Ok false /\ notify (Plain []) false 5 = Ok ([], []).
Proof. repeat split. Qed.
(** Otherwise a callback is safe exactly when it has one positional parameter or needs none. *)
Theorem C66_observer_safe : forall A ps w (d : A), signature ps -> length (filter kw_required ps) = 0 -> wants_interval (Plain ps) = Ok w ->
  ((exists v, notify (Plain ps) w d = Ok v) <-> (length (filter positional ps) = 1 \/ length (filter required ps) = 0)).
Proof. exact (fun A => notify_binds (A := A)). Qed.
Print Assumptions C66_observer_safe.
Example C66_observer_safe_ex : wants_interval (Plain [mkParam PosOrKw true; mkParam PosOrKw true]) = Ok false /\
  notify (Plain [mkParam PosOrKw true; mkParam PosOrKw true]) false 5 = Ok ([None; None], []).
Proof. split; reflexivity. Qed.

(** ** Where it goes wrong *)
(** A function of the value with an option, such as [def f(y, digits=2)], gets the
    position as the value and the value as the option. *)
Theorem C66_option_refuted : exists ps, signature ps /\ accepts ps 1 /\
  forall (A : Type) (x y : A), exists w, adapt (Plain ps) = Ok w /\ apply_map (Plain ps) w x y = Ok ([Some x; Some y], []).
Proof. exact option_swapped. Qed.
Print Assumptions C66_option_refuted.
(** A function that takes anything, [lambda *a: ...], is refused. *)
Theorem C66_anything_refuted : exists ps, signature ps /\ accepts ps 1 /\ accepts ps 2 /\ adapt (Plain ps) = Err EExc.
Proof. exact anything_refused. Qed.
Print Assumptions C66_anything_refuted.
(** A built-in function of two arguments is accepted and then called with one. *)
Theorem C66_builtin_refuted : exists ps, signature ps /\ accepts ps 2 /\ adapt (Builtin ps) = Ok false /\
  forall (A : Type) (x y : A), apply_map (Builtin ps) false x y = Err EType.
Proof. exact builtin_two. Qed.
Print Assumptions C66_builtin_refuted.
(** A callback that takes the interval and an option, [def cb(domain, log=False)],
    is called without the interval and raises in the middle of the update. *)
Theorem C66_observer_refuted : exists ps, signature ps /\ accepts ps 1 /\ wants_interval (Plain ps) = Ok false /\
  forall (A : Type) (d : A), notify (Plain ps) false d = Err EType.
Proof. exact option_observer. Qed.
Print Assumptions C66_observer_refuted.
