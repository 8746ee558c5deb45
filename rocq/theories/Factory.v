(** Model of the curves handed out by class methods: constants, among them the
    zero shared by everybody (/repo/curvepy/constant.py, curve.py:841-849), the
    empty curve (empty.py, curve.py:23-26), and the choice of an extension by
    its name (curve.py:544-559).

    A program makes constants and reads and writes them through the handles it
    got; the handle of an object is its number in the order of creation.  The
    interpreter's [_zero], made when the module is imported, has number 0.
    The keyword arguments of extension() that are modelled are those that the
    constructors treat differently. *)
From Coq Require Import String List ZArith Bool.
From Verif Require Import Base Num Interval Curve Combine Extension.
Import ListNotations.
Open Scope num_scope.
Open Scope bool_scope.
Open Scope list_scope.

Section Factory.
Context {T : Type} {N : Num T}.

(** ** Constants *)
(* constant.py:26-33 __init__ *)
Record const := mkK { k_val : option T; k_dom : ival T; k_upd : upd T }.
Definition k_new (v : option T) (dom : option (ival T)) : const := mkK v (i_parse dom) upd_init.
(* constant.py:15-21 the setter; None == None holds *)
Definition k_set (k : const) (v : option T) : const * list (ev T) :=
  if opt_same v (k_val k) then (k, [])
  else let '(u1, b) := begin_update (k_upd k) (k_dom k) in
       let '(u2, e) := end_update u1 (k_dom k) in
       (mkK v (k_dom k) u2, ev_begin b ++ ev_end e).

Inductive op :=
| OpZero                                     (* Constant.zero() *)
| OpCurveZero (v : option T)                 (* Curve.zero(v) *)
| OpConst (v : option T)                     (* Curve.const(v) *)
| OpNew (v : option T) (dom : option (ival T)) (* Constant(v, domain=dom) *)
| OpSet (h : nat) (v : option T)             (* h.value = v *)
| OpY (h : nat) (x : T)
| OpDy (h : nat) (x : T)
| OpX (h : nat) (y : option T)
| OpDomain (h : nat).
Inductive ans :=
| AObj (h : nat) | AVal (v : option T) | ADom (d : ival T) | ATold (evs : list (ev T)).

Definition heap := list const.
(* constant.py:52 *)
Definition heap0 : heap := [k_new (Some n_zero) None].
Definition deref {A} (H : heap) (h : nat) (f : const -> A) : res A :=
  match nth_error H h with Some k => Ok (f k) | None => Err EKey end.

Definition exec (H : heap) (o : op) : res (heap * ans) :=
  match o with
  | OpZero | OpCurveZero _ => Ok (H, AObj 0)                              (* constant.py:11-13, curve.py:841-844 *)
  | OpConst v => Ok (H ++ [k_new v None], AObj (length H))                (* curve.py:846-849 *)
  | OpNew v dom => Ok (H ++ [k_new v dom], AObj (length H))
  | OpSet h v =>
      match nth_error H h with
      | Some k => let '(k', evs) := k_set k v in Ok (list_set H h k', ATold evs)
      | None => Err EKey
      end
  | OpY h _ => deref H h (fun k => (H, AVal (k_val k)))                   (* constant.py:41-42 *)
  | OpDy h _ => deref H h (fun _ => (H, AVal (Some n_zero)))              (* constant.py:44-45 *)
  | OpX h y => deref H h (fun k => (H, AVal (if opt_same y (k_val k) then Some n_zero else None))) (* constant.py:47-50 *)
  | OpDomain h => deref H h (fun k => (H, ADom (k_dom k)))                (* constant.py:23-24 *)
  end.
Fixpoint run (H : heap) (l : list op) : res (heap * list ans) :=
  match l with
  | [] => Ok (H, [])
  | o :: l' => let! (H1, a) := exec H o in let! (H2, r) := run H1 l' in Ok (H2, a :: r)
  end.

(** ** The empty curve *)
(* empty.py:19-23 d_y, x; the rest is [empty_curve] of Combine.v *)
Definition empty_d_y (x : T) (forward : bool) (ms limit : option T) : res (option T) := Ok None.
Definition empty_x (y : T) : option T := None.

(** ** Extensions by name *)
Record kwds := mkKw { kw_period : option T; kw_degree : option T; kw_rperiod : option T }.
Inductive made := MConstant | MTangent (mode : tangent_mode T) | MSin (period : T) (mode : tangent_mode T).

(* tangent.py:13-23: regression_degree and regression_period *)
Definition tangent_args (k : kwds) : res (tangent_mode T) :=
  let! d := match kw_degree k with
            | None => Ok None
            | Some d => let! n := n_trunc d in if (0 <? n)%Z then Ok (Some n) else Err EAssert
            end in
  let! p := match kw_rperiod k with
            | None => Ok None
            | Some p => if p >? n_zero then Ok (Some p) else Err EAssert
            end in
  match d, p with
  | Some _, Some _ => Err EAssert
  | Some n, None => Ok (TDegree (Z.to_nat n))
  | None, Some p => Ok (TPeriod p)
  | None, None => Ok TSlope
  end.
(* curve.py:544-559; an argument that a constructor does not know raises TypeError *)
Definition extension (name : string) (k : kwds) : res made :=
  if String.eqb name "constant" then                                      (* extension/constant.py:11 *)
    match k with mkKw None None None => Ok MConstant | _ => Err EType end
  else if String.eqb name "tangent" then                                  (* tangent.py:11 *)
    let! m := tangent_args k in
    match kw_period k with None => Ok (MTangent m) | Some _ => Err EType end
  else if String.eqb name "sin" then                                      (* extension/sin.py:11-16 *)
    let period := match kw_period k with Some p => p | None => n_zero end in
    if period >? n_zero then let! m := tangent_args k in Ok (MSin period m) else Err EAssert
  else Err EExc.

End Factory.
Arguments const T : clear implicits. Arguments op T : clear implicits. Arguments ans T : clear implicits. Arguments heap T : clear implicits.
Arguments kwds T : clear implicits. Arguments made T : clear implicits.
