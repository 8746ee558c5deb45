(** Chains of accumulating curves: /repo/curvepy/scan.py, accumulator.py,
    integral.py, ema.py and accumulator_map.py over one another.

    Scan.v sees the source of an accumulating curve through a snapshot.  Here
    the source may be an accumulating curve itself, whose state every question
    may change, so the state of the source is threaded through. *)
From Coq Require Import List ZArith Bool.
From Verif Require Import Base Num Interval Curve Points Combine Scan.
Import ListNotations.
Open Scope num_scope.
Open Scope bool_scope.

Section Tower.
Context {T : Type} {N : Num T}.
Notation V := (option T).

(** Code that may change a state and may raise. *)
Definition sr (S A : Type) : Type := S -> S * res A.
Definition sret {S A} (x : A) : sr S A := fun s => (s, Ok x).
Definition sfail {S A} (e : exn) : sr S A := fun s => (s, Err e).
Definition sbind {S A B} (e : sr S A) (k : A -> sr S B) : sr S B :=
  fun s => let '(s, r) := e s in match r with Ok x => k x s | Err er => (s, Err er) end.
Local Notation "'let*' x ':=' e 'in' k" := (sbind e (fun x => k)) (at level 200, x name, e at level 100, k at level 200).

(** A curve with state, as its users see it: domain, y, x_next and x_previous. *)
Record scrv (S : Type) := mkSC {
  sc_dom : sr S (ival T);
  sc_y : T -> sr S V;
  sc_next : T -> option T -> option T -> sr S (option T);
  sc_prev : T -> option T -> option T -> sr S (option T)
}.
Arguments mkSC {S}. Arguments sc_dom {S}. Arguments sc_y {S}. Arguments sc_next {S}. Arguments sc_prev {S}.

(** The snapshot of a curve, whose answers do not depend on what was asked. *)
Definition still (c : crv T V) : scrv unit :=
  mkSC (fun s => (s, Ok (c_dom c))) (fun x s => (s, c_y c x))
       (fun x ms lim s => (s, c_next c x ms lim)) (fun x ms lim s => (s, c_prev c x ms lim)).

(** ** One accumulating curve over a curve with state *)
Section Over.
Context {S : Type}.
Variables (src : scrv S) (own : option T).
Notation st := (S * acc T V)%type.

Definition of_src {A} (e : sr S A) : sr st A := fun s => let '(t, r) := e (fst s) in ((t, snd s), r).
Definition of_acc {A} (e : sr (acc T V) A) : sr st A := fun s => let '(a, r) := e (snd s) in ((fst s, a), r).
Definition get_acc : sr st (acc T V) := fun s => (s, Ok (snd s)).

(* curve.py:36-40 the cached domain; scan.py:8-9 get_domain is the source's *)
Definition st_dom : sr st (ival T) := fun s =>
  match u_dom (a_upd (snd s)) with
  | Some d => (s, Ok d)
  | None => (let* d := of_src (sc_dom src) in of_acc (fun a => let '(a, d) := acc_dom d a in (a, Ok d))) s
  end.

(* accumulator.py:28-34 x_previous, x_next *)
Definition st_step (near : pts T V -> T -> option T -> option T -> res (option T))
    (far : T -> option T -> option T -> sr S (option T)) (x : T) (ms limit : option T) : sr st (option T) :=
  let ms := resolve_min_step own ms in
  let* a := get_acc in
  match near (a_pts a) x ms limit with
  | Err e => sfail e
  | Ok (Some v) => if v =? n_zero then of_src (far x ms limit) else sret (Some v)
  | Ok None => of_src (far x ms limit)
  end.
Definition st_prev := st_step p_x_previous (sc_prev src).
Definition st_next := st_step p_x_next (sc_next src).

(* accumulator.py:40-48 _accumulate; [tf] is accumulator_transform, which may
   ask the source *)
Definition st_accumulate (tf : pts T V -> T -> V -> V -> sr S V) (x : T) (y : V) : sr st unit :=
  let* _ := of_acc (fun a => (set_apts a (p_touch (a_pts a)), Ok tt)) in
  let* a := get_acc in
  let p := a_pts a in
  match (if i_is_empty (p_dom p) then Ok v_none
         else if negb (i_end (p_dom p) <? x) then Err EAssert
         else p_y p (i_end (p_dom p))) with
  | Err e => sfail e
  | Ok last_y =>
      let* new_y := of_src (tf p x y last_y) in
      of_acc (fun a => let '(p', _, r) := p_append (a_pts a) (x, new_y) in (set_apts a p', r))
  end.

(* scan.py:37-43 init_scan *)
Definition st_init (x : T) : sr st (option T) :=
  let* cd := of_src (sc_dom src) in
  if i_is_empty cd || i_is_negative_infinite cd then sret (Some x)
  else
    let x0 := i_start cd in
    let* d := st_dom in
    if negb (i_contains d x0) then of_src (sc_next src x0 own None) else sret (Some x0).

(* scan.py:56-67: the loop of scan.  Fuel stands for the unbounded while. *)
Fixpoint st_loop (fuel : nat) (tf : pts T V -> T -> V -> V -> sr S V) (x : T) : sr st unit :=
  match fuel with
  | O => sfail EFuel
  | Datatypes.S f =>
      let* a := get_acc in
      if (match a_cur a with None => true | Some cur => cur <? x end) then
        let* o := match a_cur a with
                  | None => let* o := st_init x in
                            let* _ := of_acc (fun a => (set_start a o, Ok tt)) in sret o
                  | Some cur => st_next cur own (Some x)
                  end in
        match o with
        | None => sret tt
        | Some current =>
            let* cd := of_src (sc_dom src) in
            if negb (i_contains cd current) then sret tt
            else if (match a_cur a with Some cur => current <=? cur | None => false end) then sfail EExc
            else
              let* y := of_src (sc_y src current) in
              let* _ := st_accumulate tf current y in
              let* _ := of_acc (fun a => (set_cur a (Some current), Ok tt)) in
              st_loop f tf x
        end
      else sret tt
  end.

(* scan.py:52-55 scan, without an offset *)
Definition st_scan (fuel : nat) (tf : pts T V -> T -> V -> V -> sr S V) (x : T) : sr st unit :=
  let* a := get_acc in
  let* _ := match a_start a with
            | Some s => if x <? s then of_acc reset_scan else sret tt
            | None => sret tt
            end in
  st_loop fuel tf x.

(* scan.py:25-29 y, accumulator.py:21-22 scanned_y *)
Definition st_y (fuel : nat) (tf : pts T V -> T -> V -> V -> sr S V) (post : V -> V) (x : T) : sr st V :=
  let* cd := of_src (sc_dom src) in
  let* out := if negb (i_contains cd x) then let* d := st_dom in sret (negb (i_contains d x)) else sret false in
  if out : bool then sret v_none
  else
    let* _ := st_scan fuel tf x in
    let* a := get_acc in
    match p_y (a_pts a) x with Err e => sfail e | Ok y => sret (post y) end.

(** ** The transforms *)
(* integral.py:22-51 _integral_scan *)
Definition st_integral_tf (half : T) (ip : interp) (p : pts T V) (x : T) (y sum : V) : sr S V :=
  match y with
  | None => sret sum
  | Some _ =>
      match p_x_previous p x (Some MIN_STEP) None with
      | Err e => sfail e
      | Ok None => fun s => (s, integral_scan half ip (fun _ => Ok None) p x y sum)
      | Ok (Some x0) =>
          let* y0 := sc_y src x0 in
          fun s => (s, integral_scan half ip (fun _ => Ok y0) p x y sum)
      end
  end.

(* ema.py:39-53 _ema_scan, without an init curve *)
Definition st_ema_tf (deg : ema_degree T) (_ : pts T V) (x : T) (y ema : V) : sr S V :=
  match y, ema, deg with
  | Some _, Some _, EmaPeriod _ =>
      let* x0 := sc_prev src x own None in fun s => (s, ema_scan deg None (fun _ => Ok x0) x y ema)
  | _, _, _ => fun s => (s, ema_scan deg None (fun _ => Ok None) x y ema)
  end.

(* curve.py:212-243: the backward walk of sample_points_from_x, open; here the
   limit is not negative and the starting x is not None *)
Fixpoint st_walk (ms : option T) (n : nat) (x1 : T) : sr S (list (T * V)) :=
  match n with
  | O => sret []
  | Datatypes.S n' =>
      let* x1 := sc_prev src x1 ms None in
      match x1 with
      | None => sret []
      | Some x1 =>
          let* y1 := sc_y src x1 in
          match y1 with
          | None => sret []
          | Some _ => let* r := st_walk ms n' x1 in sret ((x1, y1) :: r)
          end
      end
  end.
(* accumulator_map.py:42-68 _accumulator_map_scan with a number of points [n];
   [sown] is the min_step of the source *)
Definition st_map_tf (sown : option T) (n : Z) (tfm : T -> list V -> res V) (_ : pts T V) (x : T) (y _ : V) : sr S V :=
  let* more := if negb (n =? 1)%Z then st_walk (resolve_min_step sown own) (Z.to_nat (n - 1)) x else sret [] in
  fun s => (s, tfm x (y :: map snd more)).
End Over.

(** ** The chain *)
Inductive layer :=
| LInt (half : T) (ip : interp) (const : T)
| LEma (deg : ema_degree T)
| LMap (n : Z) (tfm : T -> list V -> res V).

Definition layer_tf {S} (src : scrv S) (sown own : option T) (k : layer) : pts T V -> T -> V -> V -> sr S V :=
  match k with
  | LInt half ip _ => st_integral_tf src half ip
  | LEma deg => st_ema_tf src own deg
  | LMap n tfm => st_map_tf src own sown n tfm
  end.
Definition layer_post (k : layer) : V -> V :=
  match k with LInt _ _ const => integral_post const | _ => fun y => y end.

(** An accumulating curve as a curve with state; [own] is its min_step and
    [sown] its source's. *)
Definition over {S} (fuel : nat) (src : scrv S) (sown own : option T) (k : layer) : scrv (S * acc T V) :=
  mkSC (st_dom src) (st_y src own fuel (layer_tf src sown own k) (layer_post k)) (st_next src own) (st_prev src own).

(** Layers are listed from the outermost in; each has its own min_step. *)
Definition chain := list (layer * option T).
Fixpoint TS (ks : chain) : Type :=
  match ks with [] => unit | _ :: ks => (TS ks * acc T V)%type end.
Definition top_step (base : option T) (ks : chain) : option T :=
  match ks with [] => base | (_, own) :: _ => own end.
Fixpoint tower (fuel : nat) (c : crv T V) (ks : chain) : scrv (TS ks) :=
  match ks with
  | [] => still c
  | (k, own) :: ks => over fuel (tower fuel c ks) (top_step (c_ms c) ks) own k
  end.
(* accumulator.py:9-19 __init__ of each *)
Fixpoint tower_init (ks : chain) : TS ks :=
  match ks with [] => tt | _ :: ks => (tower_init ks, acc_init ILinear true) end.

(* scan.py:98-114: each curve of the chain observes the one below it.  What a
   curve does on a notification depends on its own state alone, so the
   notifications may be delivered layer by layer; an exception in a callback
   is kept. *)
Fixpoint tower_events (ks : chain) : TS ks -> list (ev T) -> TS ks * list (ev T) * res unit :=
  match ks with
  | [] => fun s evs => (s, evs, Ok tt)
  | _ :: ks' => fun s evs =>
      let '(t, evs, r) := tower_events ks' (fst s) evs in
      match r with
      | Err e => ((t, snd s), evs, Err e)
      | Ok _ => let '(a, out, r) := acc_events (snd s) evs in ((t, a), out, r)
      end
  end.

(** A simple moving average as a curve with state: sma.py:13-38, 72-112 and the
    x_previous and x_next of accumulator.py:28-34. *)
Definition sma_src (depth fuel : nat) (half : T) (c : crv T V) (own : option T) (deg : sma_degree T) : scrv (acc T V) :=
  mkSC (sma_dom c own deg) (fun x a => sma_y depth fuel half c own deg a x)
       (fun x ms lim a => (a, acc_next c own a x ms lim)) (fun x ms lim a => (a, acc_prev c own a x ms lim)).
End Tower.
Arguments mkSC {T S}. Arguments sc_dom {T S}. Arguments sc_y {T S}. Arguments sc_next {T S}. Arguments sc_prev {T S}.
Arguments scrv T S : clear implicits. Arguments layer T : clear implicits. Arguments chain T : clear implicits. Arguments TS T ks : clear implicits.
