(** Networks of accumulating curves, Map and Aggregate curves over one source:
    /repo/curvepy/scan.py, accumulator.py, integral.py, ema.py,
    accumulator_map.py, map.py and aggregate.py over one another, curves being
    shared freely, e.g. [m = p.ema(12) - p.ema(26); h = m - m.ema(9)].

    Tower.v has chains of accumulating curves; Live.v has networks of curves
    without values of their own.  Here every curve has a number, reads curves of
    smaller numbers, and keeps a state that questions may change: the cached
    domain and, for an accumulating curve, what it has accumulated. *)
From Coq Require Import List ZArith Bool.
From Verif Require Import Base Num Interval Curve Points Combine Scan Graph Tower.
Import ListNotations.
Open Scope num_scope.
Open Scope bool_scope.

Section Weave.
Context {T : Type} {N : Num T}.
Notation V := (option T).
Local Notation "'let*' x ':=' e 'in' k" := (sbind e (fun x => k)) (at level 200, x name, e at level 100, k at level 200).

Inductive wnode :=
| WBase                                                                             (* the source *)
| WMap (skip_none : bool) (own : option T) (tfm : T -> V -> res V) (p : nat)        (* map.py:9-23 *)
| WAgg (union : bool) (default : V) (tfm : T -> list V -> res V) (ps : list nat)    (* aggregate.py:15-27 *)
| WScan (k : layer T) (own : option T) (p : nat).                                   (* scan.py:11-17 *)

(* map.py:18, aggregate.py:19, scan.py:13: the curves a curve reads *)
Definition wreads (n : wnode) : list nat :=
  match n with WBase => [] | WMap _ _ _ p => [p] | WAgg _ _ _ ps => ps | WScan _ _ p => [p] end.

(** The states, by number.  A curve that accumulates nothing uses [a_upd] alone. *)
Definition gst := list (acc T V).
Definition blank : acc T V := acc_init ILinear true.
Definition acc_at (g : gst) (j : nat) : acc T V := nth j g blank.
Fixpoint put (g : gst) (j : nat) (a : acc T V) : gst :=
  match g, j with
  | [], _ => []
  | _ :: g', O => a :: g'
  | b :: g', S j' => b :: put g' j' a
  end.
(** code of curve [j], which uses its own state and asks other curves *)
Definition at_node {A} (j : nat) (e : sr (gst * acc T V) A) : sr gst A :=
  fun g => let '(t, r) := e (g, acc_at g j) in (put (fst t) j (snd t), r).
Definition at_scrv (j : nat) (c : scrv T (gst * acc T V)) : scrv T gst :=
  mkSC (at_node j (sc_dom c)) (fun x => at_node j (sc_y c x))
       (fun x ms lim => at_node j (sc_next c x ms lim)) (fun x ms lim => at_node j (sc_prev c x ms lim)).

Fixpoint smapM {S A B} (f : A -> sr S B) (l : list A) : sr S (list B) :=
  match l with
  | [] => sret []
  | x :: l' => let* y := f x in let* ys := smapM f l' in sret (y :: ys)
  end.

(** A curve and its min_step. *)
Definition wcrv := (scrv T gst * option T)%type.
Definition nothing : wcrv := (mkSC (sfail EIndex) (fun _ => sfail EIndex) (fun _ _ _ => sfail EIndex) (fun _ _ _ => sfail EIndex), None).

(* the source, whose answers do not depend on what was asked *)
Definition w_base (c : crv T V) : wcrv :=
  (mkSC (fun g => (g, Ok (c_dom c))) (fun x g => (g, c_y c x))
        (fun x ms lim g => (g, c_next c x ms lim)) (fun x ms lim g => (g, c_prev c x ms lim)), c_ms c).

(* map.py:6-7 get_domain (cached: curve.py:36-40), 36-40 y, 42-48 x_previous, x_next *)
Definition w_map (j : nat) (skip : bool) (own : option T) (tfm : T -> V -> res V) (src : scrv T gst) : wcrv :=
  (mkSC (at_node j (st_dom src))
     (fun x => let* v := sc_y src x in
               if skip && (match v with None => true | Some _ => false end) then sret None else fun g => (g, tfm x v))
     (fun x ms lim => sc_next src x (resolve_min_step own ms) lim)
     (fun x ms lim => sc_prev src x (resolve_min_step own ms) lim), own).

(* aggregate.py:7-12 get_domain (cached: curve.py:36-40) *)
Definition w_agg_dom (j : nat) (union : bool) (srcs : list (scrv T gst)) : sr gst (ival T) := fun g =>
  match u_dom (a_upd (acc_at g j)) with
  | Some d => (g, Ok d)
  | None => (let* ds := smapM sc_dom srcs in
             let d := if union then i_union ds else i_inter ds in
             fun g => (put g j (fst (acc_dom d (acc_at g j))), Ok d)) g
  end.
(* aggregate.py:50-62 y, x_previous, x_next; min_step is None (line 18) *)
Definition w_agg (j : nat) (union : bool) (default : V) (tfm : T -> list V -> res V) (srcs : list (scrv T gst)) : wcrv :=
  (mkSC (w_agg_dom j union srcs)
     (fun x => let* d := w_agg_dom j union srcs in
               if negb (i_contains d x) then sret default
               else let* vs := smapM (fun c => sc_y c x) srcs in fun g => (g, tfm x vs))
     (fun x ms lim => let* xs := smapM (fun c => sc_next c x ms lim) srcs in sret (min_or_none x None xs))
     (fun x ms lim => let* xs := smapM (fun c => sc_prev c x ms lim) srcs in sret (max_or_none x None xs)), None).

(* an accumulating curve, as in Tower.v *)
Definition w_scan (j fuel : nat) (k : layer T) (own : option T) (src : wcrv) : wcrv :=
  (at_scrv j (over fuel (fst src) (snd src) own k), own).

Definition w_node (fuel : nat) (c : crv T V) (j : nat) (pick : nat -> wcrv) (n : wnode) : wcrv :=
  match n with
  | WBase => w_base c
  | WMap skip own tfm p => w_map j skip own tfm (fst (pick p))
  | WAgg union default tfm ps => w_agg j union default tfm (map (fun p => fst (pick p)) ps)
  | WScan k own p => w_scan j fuel k own (pick p)
  end.

(** Everything of a network, in the order of the numbers. *)
Section Build.
Context {A : Type} (dflt : A) (f : nat -> (nat -> A) -> wnode -> A).
Fixpoint build (done : list A) (ns : list wnode) : list A :=
  match ns with
  | [] => done
  | n :: ns' => build (done ++ [f (length done) (fun p => nth p done dflt) n]) ns'
  end.
End Build.
Definition w_curves (fuel : nat) (c : crv T V) (ns : list wnode) : list wcrv := build nothing (w_node fuel c) [] ns.
(** curve [j] of the network over the source [c] *)
Definition w_curve (fuel : nat) (c : crv T V) (ns : list wnode) (j : nat) : scrv T gst :=
  fst (nth j (w_curves fuel c ns) nothing).

(** ** Notifications *)
(* map.py:23 and aggregate.py:26-27 register begin_update and end_update,
   scan.py:17 begin_scan_update and end_scan_update; each curve once with each
   curve it reads (aggregate.py:25 set(...)), the newest first
   (prioritize=True, curve.py:410-411) *)
Definition w_observers (ns : list wnode) (p : nat) : list nat :=
  rev (flat_map (fun jn : nat * wnode => if existsb (Nat.eqb p) (wreads (snd jn)) then [fst jn] else []) (combine (seq 0 (length ns)) ns)).

(* scan.py:113-114 *)
Definition w_arg (n : wnode) (d : ival T) : ival T := match n with WScan _ _ _ => update_interval d | _ => d end.
(** a callback of curve [n] is called: its new state and what it notifies *)
Definition w_event (n : wnode) (a : acc T V) (e : bool) (d : ival T) : res (acc T V * option (ival T)) :=
  let told (evs : list (ev T)) :=
    match evs with (EvBegin x | EvEnd x) :: _ => if i_intersects x i_infinite then Some x else None | [] => None end in
  match n with
  | WScan _ _ _ =>
      let '(a', evs, r) := if e then end_scan_update a d else begin_scan_update a d in
      match r with Ok _ => Ok (a', told evs) | Err x => Err x end
  | _ => let '(u, x) := node_op (a_upd a) e d in Ok (set_aupd a u, x)
  end.

(* curve.py:433-466: the loops over the observers, all of which observe every x *)
Section Tell.
Context (op : gst -> nat -> bool -> ival T -> res (gst * list (entry T))).
Fixpoint w_all (cs : list nat) (g : gst) (e : bool) (x : ival T) : res (gst * list (entry T)) :=
  match cs with
  | [] => Ok (g, [])
  | c :: cs' =>
      let! (g1, l1) := op g c e x in
      let! (g2, l2) := w_all cs' g1 e x in
      Ok (g2, l1 ++ l2)
  end.
End Tell.
Fixpoint w_op (ns : list wnode) (fuel : nat) (g : gst) (j : nat) (e : bool) (d : ival T) : res (gst * list (entry T)) :=
  match fuel with
  | O => Err EFuel
  | S f =>
      let n := nth j ns WBase in
      let! (a, x) := w_event n (acc_at g j) e d in
      let g1 := put g j a in
      let! (g2, log) := match x with None => Ok (g1, []) | Some x => w_all (w_op ns f) (w_observers ns j) g1 e x end in
      Ok (g2, Graph.mkL j e (w_arg n d) x :: log)
  end.
(** the source, curve 0, sends its notifications *)
Definition w_tell1 (ns : list wnode) (fuel : nat) (g : gst) (e : ev T) : res (gst * list (entry T)) :=
  match e with
  | EvBegin d => w_all (w_op ns fuel) (w_observers ns 0) g false d
  | EvEnd d => w_all (w_op ns fuel) (w_observers ns 0) g true d
  end.
Fixpoint w_tell (ns : list wnode) (fuel : nat) (g : gst) (evs : list (ev T)) : res (gst * list (entry T)) :=
  match evs with
  | [] => Ok (g, [])
  | e :: evs' =>
      let! (g1, l1) := w_tell1 ns fuel g e in
      let! (g2, l2) := w_tell ns fuel g1 evs' in
      Ok (g2, l1 ++ l2)
  end.
End Weave.
Arguments wnode T : clear implicits. Arguments gst T : clear implicits. Arguments wcrv T : clear implicits.
