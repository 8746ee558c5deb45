(** Numbers.  Python mixes int and float; the model is written against the
    operations the code uses, as a record of functions, and instantiated twice:

    - [XQ]  : exact rationals extended with +inf, -inf and nan
              ("IEEE without rounding"); the theorems are about this instance;
    - [B64] : IEEE binary64 as given by Coq's [SpecFloat] (pure Gallina, no
              axioms); used to exhibit what rounding does to the same code. *)
From Coq Require Import List ZArith QArith Qround Qcanon Bool SpecFloat.
From Verif Require Import Base.
Open Scope res_scope.

Class Num (T : Type) := {
  n_add : T -> T -> T;
  n_sub : T -> T -> T;
  n_mul : T -> T -> T;
  n_div : T -> T -> res T;      (* raises ZeroDivisionError *)
  n_opp : T -> T;
  n_abs : T -> T;
  n_ltb : T -> T -> bool;       (* < ; every comparison with nan is False *)
  n_leb : T -> T -> bool;
  n_eqb : T -> T -> bool;
  n_ofZ : Z -> T;
  n_floor : T -> res Z;         (* math.floor *)
  n_ceil : T -> res Z;          (* math.ceil *)
  n_trunc : T -> res Z;         (* int() *)
  n_round : T -> res Z;         (* round(), ties to even *)
  n_mod1 : T -> T;              (* x % 1.0 *)
  n_isinf : T -> bool;
  n_isnan : T -> bool;
  n_inf : T;
  n_ninf : T;
  n_minstep : T                 (* the literal 1e-5 *)
}.

(* curve.py:12  MIN_STEP = 1e-5 *)
Definition MIN_STEP {T} `{Num T} : T := n_minstep.

Section Derived.
Context {T : Type} {N : Num T}.
Definition n_gtb (a b : T) := n_ltb b a.
Definition n_geb (a b : T) := n_leb b a.
Definition n_zero : T := n_ofZ 0.
Definition n_one : T := n_ofZ 1.
(** Python's built-in [max(a, b)]: the first argument unless the second is
    strictly greater; [min] likewise. *)
Definition n_max (a b : T) : T := if n_gtb b a then b else a.
Definition n_min (a b : T) : T := if n_ltb b a then b else a.
End Derived.

Declare Scope num_scope.
Delimit Scope num_scope with num.
Infix "+" := n_add : num_scope.
Infix "-" := n_sub : num_scope.
Infix "*" := n_mul : num_scope.
Infix "<?" := n_ltb : num_scope.
Infix "<=?" := n_leb : num_scope.
Infix "=?" := n_eqb : num_scope.
Infix ">?" := n_gtb (at level 70) : num_scope.
Infix ">=?" := n_geb (at level 70) : num_scope.
Notation "- x" := (n_opp x) : num_scope.

(** ** XQ: exact extended rationals *)

Inductive xq := Fin (q : Qc) | PInf | NInf | XNaN.

Definition Qcltb (a b : Qc) : bool := negb (Qle_bool b a).
Definition Qcleb (a b : Qc) : bool := Qle_bool a b.
Definition Qceqb (a b : Qc) : bool := Qeq_bool a b.

Definition xq_sgn (a : Qc) : comparison := (0 ?= a)%Qc. (* Lt: a > 0 *)

Definition xq_opp (a : xq) : xq :=
  match a with Fin q => Fin (- q)%Qc | PInf => NInf | NInf => PInf | XNaN => XNaN end.

Definition xq_add (a b : xq) : xq :=
  match a, b with
  | XNaN, _ | _, XNaN => XNaN
  | Fin p, Fin q => Fin (p + q)%Qc
  | PInf, NInf | NInf, PInf => XNaN
  | PInf, _ | _, PInf => PInf
  | NInf, _ | _, NInf => NInf
  end.

Definition xq_sub (a b : xq) : xq :=
  match a, b with
  | Fin p, Fin q => Fin (p - q)%Qc
  | _, _ => xq_add a (xq_opp b)
  end.

Definition xq_mulinf (q : Qc) : xq := (* +inf * q *)
  match xq_sgn q with Lt => PInf | Gt => NInf | Eq => XNaN end.

Definition xq_mul (a b : xq) : xq :=
  match a, b with
  | XNaN, _ | _, XNaN => XNaN
  | Fin p, Fin q => Fin (p * q)%Qc
  | Fin p, PInf | PInf, Fin p => xq_mulinf p
  | Fin p, NInf | NInf, Fin p => xq_opp (xq_mulinf p)
  | PInf, PInf | NInf, NInf => PInf
  | PInf, NInf | NInf, PInf => NInf
  end.

Definition xq_div (a b : xq) : res xq :=
  match b with
  | Fin q =>
      if Qceqb q 0 then Err EZeroDiv
      else match a with
           | Fin p => Ok (Fin (p / q)%Qc)
           | XNaN => Ok XNaN
           | PInf => Ok (xq_mulinf q)
           | NInf => Ok (xq_opp (xq_mulinf q))
           end
  | PInf | NInf =>
      match a with Fin _ => Ok (Fin 0%Qc) | _ => Ok XNaN end
  | XNaN => Ok XNaN
  end.

Definition xq_ltb (a b : xq) : bool :=
  match a, b with
  | XNaN, _ | _, XNaN => false
  | Fin p, Fin q => Qcltb p q
  | NInf, NInf => false
  | NInf, _ => true
  | _, NInf => false
  | PInf, _ => false
  | _, PInf => true
  end.

Definition xq_eqb (a b : xq) : bool :=
  match a, b with
  | Fin p, Fin q => Qceqb p q
  | PInf, PInf => true
  | NInf, NInf => true
  | _, _ => false
  end.

Definition xq_leb (a b : xq) : bool :=
  match a, b with
  | XNaN, _ | _, XNaN => false
  | Fin p, Fin q => Qcleb p q
  | NInf, _ => true
  | _, NInf => false
  | _, PInf => true
  | PInf, _ => false
  end.

Definition Qcfloor (q : Qc) : Z := Qfloor q.
Definition Qcceiling (q : Qc) : Z := Qceiling q.
Definition QcofZ (z : Z) : Qc := Q2Qc (inject_Z z).

Definition Qctrunc (q : Qc) : Z :=
  if Qcleb 0%Qc q then Qcfloor q else Qcceiling q.

(** Banker's rounding, as Python 3's [round]. *)
Definition Qcround (q : Qc) : Z :=
  let f := Qcfloor q in
  let d := (q - QcofZ f)%Qc in
  let h := Q2Qc (1 # 2) in
  if Qcltb d h then f
  else if Qcltb h d then (f + 1)%Z
  else if Z.even f then f else (f + 1)%Z.

Definition xq_toZ (f : Qc -> Z) (a : xq) : res Z :=
  match a with
  | Fin q => Ok (f q)
  | XNaN => Err EValue
  | _ => Err EOverflow
  end.

#[export] Instance XQ : Num xq := {|
  n_add := xq_add;
  n_sub := xq_sub;
  n_mul := xq_mul;
  n_div := xq_div;
  n_opp := xq_opp;
  n_abs := fun a => match a with Fin q => Fin (if Qcleb 0%Qc q then q else (- q)%Qc)
                               | NInf => PInf | _ => a end;
  n_ltb := xq_ltb;
  n_leb := xq_leb;
  n_eqb := xq_eqb;
  n_ofZ := fun z => Fin (QcofZ z);
  n_floor := xq_toZ Qcfloor;
  n_ceil := xq_toZ Qcceiling;
  n_trunc := xq_toZ Qctrunc;
  n_round := xq_toZ Qcround;
  n_mod1 := fun a => match a with Fin q => Fin (q - QcofZ (Qcfloor q))%Qc | _ => XNaN end;
  n_isinf := fun a => match a with PInf | NInf => true | _ => false end;
  n_isnan := fun a => match a with XNaN => true | _ => false end;
  n_inf := PInf;
  n_ninf := NInf;
  n_minstep := Fin (Q2Qc (1 # 100000))
|}.

(** ** B64: IEEE binary64 *)

Definition b64 := spec_float.
Definition b64_ofZ (z : Z) : b64 := binary_normalize 53 1024 z 0 false.

Definition b64_toZ (pos : positive -> Z -> Z) (neg : positive -> Z -> Z) (a : b64) : res Z :=
  match a with
  | S754_zero _ => Ok 0%Z
  | S754_finite false m e => Ok (pos m e)
  | S754_finite true m e => Ok (neg m e)
  | S754_infinity _ => Err EOverflow
  | S754_nan => Err EValue
  end.

(** floor and ceiling of [m * 2^e] for a positive mantissa *)
Definition pfloor (m : positive) (e : Z) : Z := Z.shiftl (Zpos m) e.
Definition pceil (m : positive) (e : Z) : Z := (- Z.shiftl (Zneg m) e)%Z.
(** nearest, ties to even *)
Definition pround (m : positive) (e : Z) : Z :=
  if (0 <=? e)%Z then pfloor m e
  else let f := pfloor m e in
       let d2 := (2 * (Zpos m - Z.shiftl f (- e)))%Z in
       let one := Z.shiftl 1 (- e) in
       if (d2 <? one)%Z then f
       else if (one <? d2)%Z then (f + 1)%Z
       else if Z.even f then f else (f + 1)%Z.

(** [x % 1.0]: C fmod (exact), then CPython adds the divisor when the sign
    of the remainder differs from the divisor's. *)
Definition b64_mod1 (a : b64) : b64 :=
  match a with
  | S754_zero _ => S754_zero false
  | S754_finite s m e =>
      let frac := if (0 <=? e)%Z then 0%Z
                  else (Zpos m - Z.shiftl (pfloor m e) (- e))%Z in
      let r := binary_normalize 53 1024 (if s then (- frac)%Z else frac) e false in
      if (frac =? 0)%Z then S754_zero false
      else if s then SFadd 53 1024 r (b64_ofZ 1) else r
  | _ => S754_nan
  end.

#[export] Instance B64 : Num b64 := {|
  n_add := SFadd 53 1024;
  n_sub := SFsub 53 1024;
  n_mul := SFmul 53 1024;
  n_div := fun a b => match b with
                      | S754_zero _ => Err EZeroDiv
                      | _ => Ok (SFdiv 53 1024 a b)
                      end;
  n_opp := SFopp;
  n_abs := SFabs;
  n_ltb := SFltb;
  n_leb := SFleb;
  n_eqb := SFeqb;
  n_ofZ := b64_ofZ;
  n_floor := b64_toZ pfloor (fun m e => Z.shiftl (Zneg m) e);
  n_ceil := b64_toZ pceil (fun m e => (- pfloor m e)%Z);
  n_trunc := b64_toZ pfloor (fun m e => (- pfloor m e)%Z);
  n_round := b64_toZ pround (fun m e => (- pround m e)%Z);
  n_mod1 := b64_mod1;
  n_isinf := fun a => match a with S754_infinity _ => true | _ => false end;
  n_isnan := fun a => match a with S754_nan => true | _ => false end;
  n_inf := S754_infinity false;
  n_ninf := S754_infinity true;
  n_minstep := SFdiv 53 1024 (b64_ofZ 1) (b64_ofZ 100000)
|}.
