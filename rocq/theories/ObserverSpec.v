(** Specification of the observer registry: the live registrations in order of
    registration, and the order in which they are notified. *)
From Coq Require Import List ZArith Bool.
From Verif Require Import Base Num Interval Curve Observer.
Import ListNotations.
Open Scope bool_scope.

Section Spec.
Context {T : Type} {N : Num T}.

Record entry := mkE {
  e_tok : Z;
  e_prio : bool;
  e_obj : option nat;
  e_dom : ival T;
  e_begin : option (cb T);
  e_end : option (cb T)
}.

(** prioritised registrations first, the latest first; then the others in order *)
Definition order (A : list entry) : list entry :=
  rev (filter e_prio A) ++ filter (fun e => negb (e_prio e)) A.

(** Operations on one curve's registry; [ROther] is registrations on other
    curves (the token counter is shared by all curves). *)
Inductive rop :=
| RAdd (obj : option nat) (dom : option (ival T)) (b e : option (cb T)) (autoremove prioritize : bool)
| RRemTok (t : Z)
| RRemObj (alive : nat -> bool) (o : nat)
| ROther (k : nat).

Definition drops (alive : nat -> bool) (o : nat) (e : entry) : bool :=
  match e_obj e with Some o' => negb (alive o') || (o' =? o)%nat | None => false end.

Definition spec_step (s : list entry * Z) (o : rop) : (list entry * Z) * res Z :=
  let '(A, n) := s in
  match o with
  | RAdd _ _ None None _ _ => (s, Ok 0%Z)
  | RAdd None _ _ _ true _ => ((A, (n + 1)%Z), Err EExc)
  | RAdd obj dom b e _ p => ((A ++ [mkE (n + 1) p obj (i_parse dom) b e], (n + 1)%Z), Ok (n + 1)%Z)
  | RRemTok t => ((filter (fun e => negb (e_tok e =? t)%Z) A, n), Ok 0%Z)
  | RRemObj alive ob => ((filter (fun e => negb (drops alive ob e)) A, n), Ok 0%Z)
  | ROther k => ((A, (n + Z.of_nat k)%Z), Ok 0%Z)
  end.

(** The model run on the same operations (a removal returns nothing: 0). *)
Definition code_step (r : reg T) (o : rop) : reg T * res Z :=
  match o with
  | RAdd obj dom b e a p => add_observer r obj dom b e a p
  | RRemTok t => (remove_token r t, Ok 0%Z)
  | RRemObj alive ob => let '(r', q) := remove_obj alive r ob in (r', rmap (fun _ => 0%Z) q)
  | ROther k => (mkR (r_data r) (r_tokens r) (r_counter r + Z.of_nat k)%Z, Ok 0%Z)
  end.

Fixpoint run {S : Type} (step : S -> rop -> S * res Z) (s : S) (l : list rop) : S * list (res Z) :=
  match l with
  | [] => (s, [])
  | o :: l' => let '(s1, q) := step s o in let '(s2, qs) := run step s1 l' in (s2, q :: qs)
  end.

(** The call an observer gets for an update [d] (none if its domain is not
    touched or it has no such callback). *)
Definition wants_arg (c : cb T) : bool := match c with Cb n _ => (n =? 1)%nat end.
Definition begin_calls (d : ival T) (e : entry) : list (call T) :=
  match e_begin e with
  | Some c => if i_intersects d (e_dom e) then [mkCall (e_tok e) false (if wants_arg c then Some d else None)] else []
  | None => []
  end.
Definition end_calls (d : ival T) (e : entry) : list (call T) :=
  match e_end e with
  | Some c => if i_intersects d (e_dom e) then [mkCall (e_tok e) true (if wants_arg c then Some d else None)] else []
  | None => []
  end.

(** Callbacks that do not touch the registry. *)
Definition cb_passive (c : option (cb T)) : Prop := match c with Some c => cb_acts c = [] | None => True end.
Definition passive (A : list entry) : Prop := Forall (fun e => cb_passive (e_begin e) /\ cb_passive (e_end e)) A.

(** [e1] is notified before [e2]. *)
Definition before (A : list entry) (e1 e2 : entry) : Prop :=
  exists l1 l2 l3, order A = l1 ++ e1 :: l2 ++ e2 :: l3.

(** The tokens removed by a callback that only removes observers by token. *)
Definition removes (c : option (cb T)) (ts : list Z) : Prop :=
  match c with Some c => cb_acts c = map ARemoveTok ts | None => ts = [] end.

End Spec.
Arguments entry T : clear implicits.
Arguments rop T : clear implicits.
