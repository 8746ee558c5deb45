(** curvepy/curve.py:851-1053: parse and parse_descriptor.

    A descriptor, and whatever parsing it gives, is a tree of numbers,
    strings, other leaves, curves, sequences and string-keyed mappings.  The
    list of decorators that parse_descriptor shares with its recursive calls
    and mutates is a state.

    What the parser calls and does not define is the record [world]: the
    logarithms, arrow.get, the powers, the methods of curves and the
    constructors.  Simplifications: every function a descriptor names answers
    with a curve (the parser also accepts methods that answer otherwise);
    curves are true in a boolean context, as no class of curves defines
    __len__ or __bool__; an "@args" that is not a sequence raises TypeError
    (unpacking a string or a mapping does not); sequences are lists. *)
From Coq Require Import List String Bool Arith.
From Verif Require Import Base Util.
Import ListNotations.
Open Scope res_scope.

Section Values.
Context {R C X : Type}.
(** Numbers, curves, and leaves of other kinds (None, booleans, callables). *)
Inductive pv :=
| PNum (r : R)
| PStr (s : string)
| POther (x : X)
| PCurve (c : C)
| PList (l : list pv)
| PDict (d : list (string * pv)).
End Values.
Arguments pv R C X : clear implicits.

Section World.
Context (R C X : Type).
Notation pv := (pv R C X).
Record world := {
  w_e : R;                                   (* math.e *)
  w_int : string -> res R;                   (* int(base_str) *)
  w_ln : R -> res R;                         (* math.log(d) *)
  w_log2 : R -> res R;                       (* math.log(d, 2) *)
  w_log10 : R -> res R;                      (* math.log(d, 10) *)
  w_date : pv -> res R;                      (* arrow.get(d).timestamp *)
  w_pow : R -> R -> res R;                   (* base ** v of a number *)
  w_rpow : R -> C -> res C;                  (* base ** v of a curve *)
  w_obj : C;                                 (* _func_obj *)
  w_type_method : C -> string -> bool;       (* in inspect.getmembers(type(f), ismethod) *)
  w_method : C -> string -> bool;            (* in inspect.getmembers(f, ismethod) *)
  w_call_type : C -> string -> list pv -> dict pv -> res C;  (* getattr(type(f), name) called with args and kwargs *)
  w_call : C -> string -> list pv -> dict pv -> res C;       (* getattr(f, name) called with args and kwargs *)
  w_log : C -> dict pv -> res C;             (* f.log called with kwargs *)
  w_constant : list pv -> dict pv -> res C;
  w_line : list pv -> dict pv -> res C;
  w_points : list pv -> res C;
  w_parse : X -> res (option C)              (* Curve.parse of a leaf: None, a callable *)
}.
End World.
Arguments w_e {R C X}. Arguments w_int {R C X}. Arguments w_ln {R C X}. Arguments w_log2 {R C X}.
Arguments w_log10 {R C X}. Arguments w_date {R C X}. Arguments w_pow {R C X}. Arguments w_rpow {R C X}.
Arguments w_obj {R C X}. Arguments w_type_method {R C X}. Arguments w_method {R C X}.
Arguments w_call_type {R C X}. Arguments w_call {R C X}. Arguments w_log {R C X}.
Arguments w_constant {R C X}. Arguments w_line {R C X}. Arguments w_points {R C X}. Arguments w_parse {R C X}.

(** Computations that read and change the list of decorators. *)
Definition M (A : Type) : Type := list string -> list string * res A.
Definition ret {A} (a : A) : M A := fun s => (s, Ok a).
Definition lift {A} (r : res A) : M A := fun s => (s, r).
Definition bind {A B} (m : M A) (f : A -> M B) : M B :=
  fun s => match m s with (s, Ok a) => f a s | (s, Err e) => (s, Err e) end.
Notation "'do!' x := m 'in' k" := (bind m (fun x => k)) (at level 200, x pattern, m at level 100, k at level 200).
Fixpoint mapM {A B} (f : A -> M B) (l : list A) : M (list B) :=
  match l with [] => ret [] | x :: l' => do! y := f x in do! ys := mapM f l' in ret (y :: ys) end.

Definition starts (p k : string) : bool := String.prefix p k.
(* k[n:] *)
Fixpoint drop (n : nat) (s : string) : string :=
  match n, s with O, _ => s | S n', String _ s' => drop n' s' | S _, EmptyString => EmptyString end.
Fixpoint del_at {A} (i : nat) (l : list A) : list A :=
  match l, i with [], _ => [] | _ :: l', O => l' | x :: l', S i' => x :: del_at i' l' end.
Definition asks (o : string) (s : list string) : bool := existsb (String.eqb o) s.

Section Parse.
Context {R C X : Type} (w : world R C X).
Notation pv := (pv R C X).

(* curve.py:943-944, 971-972: the base in the name of a log *)
Definition base_of (name : string) : res R :=
  let b := drop 3 name in if negb (String.eqb b "") then w_int w b else Ok (w_e w).
(* curve.py:945: v = base ** v *)
Definition raise_to (base : R) (v : pv) : res pv :=
  match v with
  | PNum r => let! r := w_pow w base r in Ok (PNum r)
  | PCurve c => let! c := w_rpow w base c in Ok (PCurve c)
  | _ => Err EType
  end.
(* curve.py:1039-1051: a leaf of a fragment *)
Definition literal (s : list string) (d : pv) : res pv :=
  if asks "date" s then let! r := w_date w d in Ok (PNum r)
  else
    match d with
    | PNum r =>
        if asks "log" s then let! r := w_ln w r in Ok (PNum r)
        else if asks "log2" s then let! r := w_log2 w r in Ok (PNum r)
        else if asks "log10" s then let! r := w_log10 w r in Ok (PNum r)
        else Ok d
    | _ => Ok d
    end.

(* curve.py:891-921 next_func_constructor and 957-978: what a $-key names.  The
   boolean of the code, fconstructor_from_instance, is [from_instance]. *)
Inductive ctor := KConstant | KLine | KLog (base : R) | KType (name : string) | KMethod (name : string).
Definition from_instance (k : ctor) : bool := match k with KLog _ | KMethod _ => true | _ => false end.
Definition or_obj (cur : option C) : C := match cur with Some c => c | None => w_obj w end.
Definition next_func_constructor (cur : option C) (fname : string) : res ctor :=
  let f := or_obj cur in
  let fname := if w_type_method w f (fname ++ "_many") then (fname ++ "_many")%string else fname in
  if w_type_method w f fname then Ok (KType fname)
  else if w_method w f fname then Ok (KMethod fname)
  else Err EValue.
Definition constructor (cur : option C) (fname : string) : res ctor :=
  if String.eqb fname "const" || String.eqb fname "constant" then Ok KConstant
  else if String.eqb fname "line" then Ok KLine
  else if starts "log" fname then let! b := base_of fname in Ok (KLog b)
  else next_func_constructor cur fname.
(* calling it *)
Definition construct (k : ctor) (cur : option C) (args : list pv) (kwargs : dict pv) : res C :=
  match k with
  | KConstant => w_constant w args kwargs
  | KLine => w_line w args kwargs
  | KLog base =>
      match cur with
      | None => Err EAttr
      | Some c => let! kw := snd (extend (Some [("base"%string, PNum base)]) [IMap kwargs] false) in
                  w_log w c (match kw with Some d => d | None => [] end)
      end
  | KType name => w_call_type w (or_obj cur) name args kwargs
  | KMethod name => w_call w (or_obj cur) name args kwargs
  end.

(* curve.py:851-875 parse; [descr] is parse_descriptor with its defaults *)
Definition is_pair (v : pv) : bool :=
  match v with PList l => List.length l =? 2 | PStr s => String.length s =? 2 | _ => false end.
Definition parse (descr : pv -> res pv) (v : pv) : res (option C) :=
  match v with
  | PCurve c => Ok (Some c)
  | PNum r => let! c := w_constant w [v] [] in Ok (Some c)
  | POther x => w_parse w x
  | PStr "" | PList [] => let! c := w_points w [] in Ok (Some c)
  | PStr _ => Err EExc
  | PList ((x :: _) as l) => if is_pair x then let! c := w_points w l in Ok (Some c) else Err EExc
  | PDict _ =>
      let! v := descr v in
      match v with
      | PCurve c => Ok (Some c)
      | PDict [] => Ok None        (* an empty dict is as false as None *)
      | _ => Err EAttr             (* it has none of the methods asked of it *)
      end
  end.

(* curve.py:984-996: args and kwargs of a function, before the current one *)
Definition split_args (fa : pv) : res (list pv * dict pv) :=
  let '(args, kwargs) := match fa with PDict d => ([], d) | PList l => (l, []) | v => ([v], []) end in
  match dget "@args" kwargs with
  | None => Ok (args, kwargs)
  | Some (PList l) => Ok (l, ddel kwargs "@args")
  | Some _ => Err EType
  end.
(* curve.py:1001-1007: the current function goes first *)
Definition prepend (c : C) (args : list pv) : list pv :=
  match args with PList l :: r => PList (PCurve c :: l) :: r | _ => PCurve c :: args end.

(* curve.py:926-1027: the loop over the items of a mapping of [n] keys.  [rec]
   is the recursive call (fragment, current_func, d). *)
Section Loop.
Variable rec : bool -> option C -> pv -> M pv.
Definition descr0 (v : pv) : res pv := snd (rec false None v []).
(* curve.py:957-1009: a function key *)
Definition function_key (k : string) (v : pv) (cur : option C) : M C :=
  do! kt := lift (constructor cur (drop 1 k)) in
  do! fa := rec true None v in
  do! (args, kwargs) := lift (split_args fa) in
  do! (cur, args) := lift
    (match from_instance kt, cur with
     | true, None =>
         match args with
         | [] => Err EIndex
         | a :: rest => let! c := parse descr0 a in Ok (c, rest)
         end
     | false, Some c => Ok (cur, prepend c args)
     | _, _ => Ok (cur, args)
     end) in
  lift (construct kt cur args kwargs).
(* curve.py:928-945: the value of a decorator key *)
Definition decorator_key (k : string) (v : pv) (fragment : bool) (cur : option C) : M pv :=
  let oname := drop 1 k in
  fun s =>
    let i := List.length s in
    bind (rec fragment cur v)
      (fun v s => (let s := del_at i s in s,
         if starts "log" oname then let! b := base_of oname in raise_to b v else Ok v))
      (s ++ [oname]).
(* curve.py:1014-1025: the value of any other key *)
Definition plain_key (v : pv) : M pv :=
  match v with PDict _ | PList _ => rec true None v | _ => ret v end.
Fixpoint items_loop (n : nat) (fragment : bool) (items : list (string * pv)) (cur : option C) (vals : dict pv) : M pv :=
  match items with
  | [] => ret (match cur with Some c => PCurve c | None => PDict vals end)
  | (k, v) :: rest =>
      let plain v :=
        match cur with
        | Some _ => lift (Err EExc)
        | None => do! v := plain_key v in items_loop n fragment rest cur (dset vals k v)
        end in
      if starts "@" k then
        do! v := decorator_key k v fragment cur in
        match v with
        | PCurve c => items_loop n fragment rest (Some c) vals
        | _ => if negb (String.eqb (drop 1 k) "args") then
                 if negb (n =? 1) then lift (Err EValue) else ret v
               else plain v
        end
      else if starts "$" k then
        do! c := function_key k v cur in items_loop n fragment rest (Some c) vals
      else plain v
  end.
End Loop.

(* curve.py:877-1053 parse_descriptor; [fuel] bounds the recursion *)
Fixpoint parse_descriptor (fuel : nat) (fragment : bool) (cur : option C) (d : pv) : M pv :=
  match fuel with
  | O => lift (Err EFuel)
  | S fuel =>
      match d with
      | PDict items => items_loop (parse_descriptor fuel) (List.length items) fragment items cur []
      | PList l => if fragment then do! l := mapM (parse_descriptor fuel true None) l in ret (PList l) else lift (Err EType)
      | _ => if fragment then (fun s => (s, literal s d)) else lift (Err EType)
      end
  end.

(** Depth bounds the recursion: see [parse_fuel] in DescriptorFacts.v. *)
Fixpoint depth (v : pv) : nat :=
  match v with
  | PList l => S (list_max (map depth l))
  | PDict d => S (list_max (map (fun kv => depth (snd kv)) d))
  | _ => 0
  end.
(* curve.py:874: the outer call, with no decorators *)
Definition descriptor (d : pv) : res pv := snd (parse_descriptor (S (depth d)) false None d []).
Definition curve_parse (v : pv) : res (option C) := parse descriptor v.
End Parse.
