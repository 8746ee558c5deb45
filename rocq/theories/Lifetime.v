(** Model of the registrations that derived curves make with their sources and
    drop in their finalisers (the [__init__] and [__del__] methods).  Only the
    registries matter here, so a curve is a number. *)
From Coq Require Import List ZArith Bool.
From Verif Require Import Base Num Interval Curve Observer ObserverSpec.
Import ListNotations.
Open Scope bool_scope.

Section Lifetime.
Context {T : Type} {N : Num T}.

(* curve.py:21, 53-54: a registry per curve and one token counter for all of them *)
Record heap := mkHeap { h_regs : nat -> reg T; h_counter : Z }.
Definition heap0 : heap := mkHeap (fun _ => reg_init 0) 0.
Definition registry (h : heap) (c : nat) : reg T :=
  mkR (r_data (h_regs h c)) (r_tokens (h_regs h c)) (h_counter h).
Definition h_put (h : heap) (c : nat) (r : reg T) : heap :=
  mkHeap (fun c' => if (c' =? c)%nat then r else h_regs h c') (r_counter r).

(** an operation of the registry of curve [c] *)
Definition h_op (h : heap) (c : nat) (o : rop T) : heap * res Z :=
  let '(r, q) := code_step (registry h c) o in (h_put h c r, q).
Definition h_ops (h : heap) (l : list (nat * rop T)) : heap := fold_left (fun h p => fst (h_op h (fst p) (snd p))) l h.

(** the bound methods begin_update and end_update: one positional argument, no
    registry operation *)
Definition forwards : option (cb T) := Some (Cb 1 []).
(* [prioritize]d registration of [obj] (if given) with curve [c]; both callbacks *)
Definition subscribe1 (h : heap) (obj : option nat) (c : nat) (p : bool) : heap * Z :=
  let '(h, q) := h_op h c (RAdd obj None forwards forwards false p) in
  (h, match q with Ok t => t | Err _ => 0%Z end).

Inductive derived :=
| DOne (c : nat)                            (* Map, Offset, Scan and its subclasses *)
| DMany (fs us : list nat)                  (* Aggregate, Piecewise: the operands, and list(set(operands)) *)
| DExtremas (c ref : nat)
| DExtension (me c : nat) (fn : list nat).  (* the object itself, its curve, the extension functions it makes *)

Fixpoint subscribe_many (h : heap) (obj : option nat) (cs : list nat) (p : bool) : heap * list Z :=
  match cs with
  | [] => (h, [])
  | c :: cs' =>
      let '(h, t) := subscribe1 h obj c p in
      let '(h, ts) := subscribe_many h obj cs' p in (h, t :: ts)
  end.

(* map.py:23, offset.py:25-26, scan.py:17; aggregate.py:25-27, piecewise.py:18-19;
   extremas.py:19-20; extension/extension.py:34-42.  The answer is the list of tokens. *)
Definition subscribe (h : heap) (o : derived) : heap * list Z :=
  match o with
  | DOne c => subscribe_many h None [c] true
  | DMany fs us => subscribe_many h None us true
  | DExtremas c ref =>
      let '(h, ts) := subscribe_many h None [c] true in
      let '(h, us) := subscribe_many h None [ref] false in (h, ts ++ us)
  | DExtension me c fn =>
      let '(h, ts) := subscribe_many h None [c] true in
      let '(h, us) := subscribe_many h (Some me) fn false in (h, ts ++ us)
  end.
(** the curves it registers with, in the order of the tokens *)
Definition sources (o : derived) : list nat :=
  match o with
  | DOne c => [c]
  | DMany fs us => us
  | DExtremas c ref => [c; ref]
  | DExtension me c fn => c :: fn
  end.

(* zip: the shorter list decides *)
Fixpoint unsubscribe (h : heap) (l : list (nat * Z)) : heap :=
  match l with [] => h | (c, t) :: l' => unsubscribe (fst (h_op h c (RRemTok t))) l' end.

(* __del__: map.py:32-33, offset.py:28-29, scan.py:19-23; aggregate.py:29-31,
   piecewise.py:21-23; extremas.py:22-23 (scan.py's is not called);
   extension/extension.py:44-45.  [ts] are the stored tokens. *)
Definition finalise (alive : nat -> bool) (h : heap) (o : derived) (ts : list Z) : heap :=
  match o with
  | DOne c => unsubscribe h (combine [c] ts)
  | DMany fs us => unsubscribe h (combine fs ts)
  | DExtremas c ref => unsubscribe h (combine [ref] (skipn 1 ts))
  | DExtension me c fn => fst (h_op h c (RRemObj alive me))
  end.
End Lifetime.
Arguments heap T : clear implicits.
