(** Model of which objects stay in memory: references between curves, the
    objects a registration refers to, and finalisers that may run on whatever
    the program can no longer reach.  The registries are those of Lifetime.v. *)
From Coq Require Import List ZArith Bool.
From Verif Require Import Base Num Interval Curve Observer ObserverSpec Lifetime.
Import ListNotations.
Open Scope bool_scope.

Section Retain.
Context {T : Type} {N : Num T}.

Record mem := mkMem {
  m_heap : heap T;
  m_next : nat;                                (* objects are numbered in the order they are made *)
  m_kind : nat -> option (derived * list Z);   (* a derived curve and its tokens *)
  m_extra : nat -> list nat;                   (* what other attributes refer to: ema.py:17 init_func, generic.py:11 y_func, ... *)
  m_holds : Z -> list nat;                     (* what the callbacks of a registration refer to *)
  m_autos : list (nat * Z * nat);              (* autoremoving registrations: curve, token, object *)
  m_vars : list nat;                           (* variables of the program *)
  m_dead : nat -> bool }.
Definition mem0 : mem := mkMem heap0 0 (fun _ => None) (fun _ => []) (fun _ => []) [] [] (fun _ => false).

(* the curves a derived curve keeps in its attributes: map.py:13, offset.py:19,
   scan.py:13 curve; aggregate.py:19, piecewise.py:14 funcs; extremas.py:12
   ref_func; extension/extension.py:24-41 curve, start_func and end_func *)
Definition attrs (o : derived) : list nat :=
  match o with
  | DOne c => [c]
  | DMany fs us => fs
  | DExtremas c ref => [c; ref]
  | DExtension me c fn => c :: fn
  end.

Definition put {A} (f : nat -> A) (i : nat) (a : A) : nat -> A := fun j => if (j =? i)%nat then a else f j.
Definition put_all (f : Z -> list nat) (ts : list Z) (l : list nat) : Z -> list nat :=
  fun t => if existsb (Z.eqb t) ts then l else f t.
Fixpoint remove1 (i : nat) (l : list nat) : list nat :=
  match l with [] => [] | j :: l' => if (j =? i)%nat then l' else j :: remove1 i l' end.

Inductive gop :=
| GNew (extra : list nat)                     (* any object that registers nowhere *)
| GDerive (o : derived) (extra : list nat)    (* any object that does *)
| GBind (i : nat)                             (* another variable for i *)
| GDrop (i : nat)                             (* a variable is deleted or leaves its scope *)
| GAssign (i : nat) (extra : list nat)        (* the attributes of i change *)
| GObserve (c : nat) (obj : option nat) (holds : list nat) (auto p : bool)
| GForget (c : nat) (t : Z)
| GFinal (alive : nat -> bool) (i : nat).     (* the interpreter finalises i *)

(* curve.py:384-417 with both callbacks *)
Definition observe1 (h : heap T) (obj : option nat) (c : nat) (auto p : bool) : heap T * Z :=
  let '(h, q) := h_op h c (RAdd obj None forwards forwards auto p) in
  (h, match q with Ok t => t | Err _ => 0%Z end).

Definition gstep (m : mem) (g : gop) : mem :=
  let h := m_heap m in let n := m_next m in
  match g with
  | GNew extra => mkMem h (S n) (m_kind m) (put (m_extra m) n extra) (m_holds m) (m_autos m) (n :: m_vars m) (m_dead m)
  (* the callbacks are bound methods of the new object: curve.py:411-412 keeps
     strong references to them *)
  | GDerive o extra =>
      mkMem (fst (subscribe h o)) (S n) (put (m_kind m) n (Some (o, snd (subscribe h o)))) (put (m_extra m) n extra)
        (put_all (m_holds m) (snd (subscribe h o)) [n]) (m_autos m) (n :: m_vars m) (m_dead m)
  | GBind i => mkMem h n (m_kind m) (m_extra m) (m_holds m) (m_autos m) (i :: m_vars m) (m_dead m)
  | GDrop i => mkMem h n (m_kind m) (m_extra m) (m_holds m) (m_autos m) (remove1 i (m_vars m)) (m_dead m)
  | GAssign i extra => mkMem h n (m_kind m) (put (m_extra m) i extra) (m_holds m) (m_autos m) (m_vars m) (m_dead m)
  (* curve.py:391-401: the object itself is referred to weakly *)
  | GObserve c obj holds auto p =>
      let t := snd (observe1 h obj c auto p) in
      mkMem (fst (observe1 h obj c auto p)) n (m_kind m) (m_extra m) (put_all (m_holds m) [t] holds)
        (match obj with Some i => if auto then (c, t, i) :: m_autos m else m_autos m | None => m_autos m end) (m_vars m) (m_dead m)
  | GForget c t => mkMem (fst (h_op h c (RRemTok t))) n (m_kind m) (m_extra m) (m_holds m) (m_autos m) (m_vars m) (m_dead m)
  (* __del__, then the callbacks of weak references (curve.py:396) *)
  | GFinal alive i =>
      let h := match m_kind m i with Some (o, ts) => finalise alive h o ts | None => h end in
      let h := unsubscribe h (map fst (filter (fun a => (snd a =? i)%nat) (m_autos m))) in
      mkMem h n (m_kind m) (m_extra m) (m_holds m) (m_autos m) (m_vars m) (put (m_dead m) i true)
  end.

(** token [t] is registered with curve [c] *)
Definition registered_at (m : mem) (c : nat) (t : Z) : Prop := In t (r_tokens (h_regs (m_heap m) c)).
(** object [i] refers to object [j] *)
Inductive refers (m : mem) (i j : nat) : Prop :=
| rf_attr o ts : m_kind m i = Some (o, ts) -> In j (attrs o) -> refers m i j
| rf_extra : In j (m_extra m i) -> refers m i j
| rf_callback t : registered_at m i t -> In j (m_holds m t) -> refers m i j.
Inductive reach (m : mem) : nat -> Prop :=
| re_var i : In i (m_vars m) -> reach m i
| re_ref i j : reach m i -> refers m i j -> reach m j.

(** a program only uses what it can reach; tokens of the library's own
    registrations are private; the interpreter only finalises what the program
    cannot reach, once, and weak references to such objects may or may not be
    cleared yet *)
Definition allowed (m : mem) (g : gop) : Prop :=
  match g with
  | GNew extra => Forall (reach m) extra
  | GDerive o extra => Forall (reach m) (sources o) /\ Forall (reach m) extra /\
      match o with
      | DMany fs us => NoDup us /\ forall c, In c us <-> In c fs
      | DExtension me _ _ => me = m_next m
      | _ => True
      end
  | GBind i => reach m i
  | GDrop i => True
  | GAssign i extra => reach m i /\ Forall (reach m) extra
  | GObserve c obj holds auto p => reach m c /\ Forall (reach m) holds /\ match obj with Some i => reach m i | None => auto = false end
  | GForget c t => reach m c /\ forall i o ts, m_kind m i = Some (o, ts) -> ~ In t ts
  | GFinal alive i => ~ reach m i /\ (i < m_next m)%nat /\ m_dead m i = false /\ forall j, reach m j -> alive j = true
  end.
Inductive program : mem -> Prop :=
| pr_start : program mem0
| pr_step m g : program m -> allowed m g -> program (gstep m g).
End Retain.
Arguments mem T : clear implicits.
