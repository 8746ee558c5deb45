(** Model of the observer registry and the notification loops of
    /repo/curvepy/curve.py, class Curve (lines 50-57, 384-473).

    A callback is data: how many positional arguments it takes, and which
    registry operations of the same curve it performs when called.  Calls are
    logged.  Callbacks that start further updates of the same curve are not
    modelled here (Graph.v models forwarding to other curves). *)
From Coq Require Import List ZArith Bool.
From Verif Require Import Base Num Interval Curve.
Import ListNotations.
Open Scope bool_scope.

Section Observer.
Context {T : Type} {N : Num T}.

Inductive cb := Cb (npos : nat) (acts : list act)
with act :=
| ARemoveTok (t : Z)
| ARemoveObj (o : nat)
| AAdd (obj : option nat) (dom : option (ival T)) (b e : option cb) (prioritize : bool).

Definition cb_acts (c : cb) : list act := match c with Cb _ a => a end.

(* curve.py:412 the tuple stored per token; the objects behind the weak
   references are numbered *)
Record odata := mkO {
  o_ref : option nat;
  o_dom : ival T;
  o_begin : option cb;
  o_end : option cb;
  o_bw : bool;      (* begin_with_interval *)
  o_ew : bool       (* end_with_interval *)
}.

(* curve.py:21, 53-54: Curve._token_counter, _observer_data, _ordered_observer_tokens *)
Record reg := mkR { r_data : list (Z * odata); r_tokens : list Z; r_counter : Z }.
Definition reg_init (counter : Z) : reg := mkR [] [] counter.

(* dict lookup and deletion *)
Definition d_get (d : list (Z * odata)) (t : Z) : option odata :=
  match find (fun p => (fst p =? t)%Z) d with Some p => Some (snd p) | None => None end.
Definition d_del (d : list (Z * odata)) (t : Z) : list (Z * odata) :=
  filter (fun p => negb (fst p =? t)%Z) d.
(* list.remove: the first occurrence *)
Fixpoint l_remove (t : Z) (l : list Z) : list Z :=
  match l with [] => [] | x :: l' => if (x =? t)%Z then l' else x :: l_remove t l' end.

(* util.py:36-47 count_positional_args(callback) == 1 *)
Definition takes_interval (c : option cb) : bool :=
  match c with Some (Cb n _) => (n =? 1)%nat | None => false end.

(* curve.py:384-417 add_observer; the result is the returned token *)
Definition add_observer (r : reg) (obj : option nat) (dom : option (ival T))
    (b e : option cb) (autoremove prioritize : bool) : reg * res Z :=
  match b, e with
  | None, None => (r, Ok 0%Z)
  | _, _ =>
      let token := (r_counter r + 1)%Z in
      match obj, autoremove with
      | None, true => (mkR (r_data r) (r_tokens r) token, Err EExc)
      | _, _ =>
          (mkR (r_data r ++ [(token, mkO obj (i_parse dom) b e (takes_interval b) (takes_interval e))])
               (if prioritize then token :: r_tokens r else r_tokens r ++ [token]) token, Ok token)
      end
  end.

(* curve.py:420-423 remove_observer(token) *)
Definition remove_token (r : reg) (t : Z) : reg :=
  match d_get (r_data r) t with
  | Some _ => mkR (d_del (r_data r) t) (l_remove t (r_tokens r)) (r_counter r)
  | None => r
  end.

(* curve.py:424-431 remove_observer(obj).  [alive o] says whether the weakly
   referenced object still exists.  The loop runs over a copy of the tokens. *)
Fixpoint remove_obj_loop (alive : nat -> bool) (o : nat) (ts : list Z) (r : reg) : reg * res unit :=
  match ts with
  | [] => (r, Ok tt)
  | t :: ts' =>
      match d_get (r_data r) t with
      | None => (r, Err EKey)
      | Some od =>
          let hit := match o_ref od with Some o' => negb (alive o') || (o' =? o)%nat | None => false end in
          remove_obj_loop alive o ts'
            (if hit then mkR (d_del (r_data r) t) (l_remove t (r_tokens r)) (r_counter r) else r)
      end
  end.
Definition remove_obj (alive : nat -> bool) (r : reg) (o : nat) : reg * res unit :=
  remove_obj_loop alive o (r_tokens r) r.

(** One action of a callback.  Its own failures cannot happen (proved for the
    registries that occur), so they are dropped. *)
Definition run_act (alive : nat -> bool) (r : reg) (a : act) : reg :=
  match a with
  | ARemoveTok t => remove_token r t
  | ARemoveObj o => fst (remove_obj alive r o)
  | AAdd obj dom b e p => fst (add_observer r obj dom b e false p)
  end.
Definition run_acts (alive : nat -> bool) (r : reg) (l : list act) : reg := fold_left (run_act alive) l r.

(** One call of an observer: token, which callback, the argument if it takes one. *)
Record call := mkCall { k_tok : Z; k_end : bool; k_arg : option (ival T) }.

(* curve.py:437-444: the loop of begin_update runs over the live list; [i] is
   the position of Python's list iterator *)
Fixpoint begin_loop (alive : nat -> bool) (fuel : nat) (i : nat) (d : ival T) (r : reg) : reg * list call * res unit :=
  match fuel with
  | O => (r, [], Err EFuel)
  | S f =>
      match nth_error (r_tokens r) i with
      | None => (r, [], Ok tt)
      | Some t =>
          match d_get (r_data r) t with
          | None => (r, [], Err EKey)
          | Some od =>
              if i_intersects d (o_dom od) then
                match o_begin od with
                | Some c =>
                    let '(r', log, q) := begin_loop alive f (S i) d (run_acts alive r (cb_acts c)) in
                    (r', mkCall t false (if o_bw od then Some d else None) :: log, q)
                | None => begin_loop alive f (S i) d r
                end
              else begin_loop alive f (S i) d r
          end
      end
  end.

(* curve.py:459-466: the loop of end_update runs over a copy [ts] *)
Fixpoint end_loop (alive : nat -> bool) (ts : list Z) (d : ival T) (r : reg) : reg * list call * res unit :=
  match ts with
  | [] => (r, [], Ok tt)
  | t :: ts' =>
      match d_get (r_data r) t with
      | None => (r, [], Err EKey)
      | Some od =>
          if i_intersects d (o_dom od) then
            match o_end od with
            | Some c =>
                let '(r', log, q) := end_loop alive ts' d (run_acts alive r (cb_acts c)) in
                (r', mkCall t true (if o_ew od then Some d else None) :: log, q)
            | None => end_loop alive ts' d r
            end
          else end_loop alive ts' d r
      end
  end.

(** A curve with its observers. *)
Definition ocurve := (upd T * reg)%type.

(* curve.py:433-444 begin_update *)
Definition ob_begin (alive : nat -> bool) (fuel : nat) (c : ocurve) (d : ival T) : ocurve * list call * res unit :=
  match begin_update (fst c) d with
  | (u, None) => ((u, snd c), [], Ok tt)
  | (u, Some d') =>
      let '(r, log, q) := begin_loop alive fuel 0 d' (snd c) in ((u, r), log, q)
  end.

(* curve.py:446-466 end_update *)
Definition ob_end (alive : nat -> bool) (c : ocurve) (d : ival T) : ocurve * list call * res unit :=
  match end_update (fst c) d with
  | (u, None) => ((u, snd c), [], Ok tt)
  | (u, Some d') =>
      let '(r, log, q) := end_loop alive (r_tokens (snd c)) d' (snd c) in ((u, r), log, q)
  end.

End Observer.
Arguments cb T : clear implicits.
Arguments act T : clear implicits.
Arguments odata T : clear implicits.
Arguments reg T : clear implicits.
Arguments call T : clear implicits.
