(** C76: constants, the shared zero, the empty curve and extensions by name
    (constant.py, empty.py, curve.py:23-26, 544-559, 841-849).

    A program is a list [l] of operations; [objects l], [value_of l h] and
    [domain_of l h] are read off the program: the objects made, the value last
    written to (or given at the creation of) object [h], and its domain. *)
From Coq Require Import String List ZArith QArith Qcanon Bool Lia.
From Verif Require Import Base Num NumFacts Interval IntervalFacts Curve BaseFacts BaseEx Combine Extension Factory FactoryFacts.
Import ListNotations.
Open Scope list_scope.

(** A constant has, at every x, the value last written through its own handle. *)
Theorem C76_values : forall l H r h x, Forall op_ok l -> run heap0 l = Ok (H, r) -> (h < length (objects l))%nat ->
  exec H (OpY h x) = Ok (H, AVal (value_of l h)) /\ exec H (OpDy h x) = Ok (H, AVal (Some (Fin 0))) /\ exec H (OpDomain h) = Ok (H, ADom (domain_of l h)).
Proof. exact const_values. Qed.
Print Assumptions C76_values.
Example C76_values_ex : exists H r, run heap0 z5 = Ok (H, r) /\ Forall op_ok z5 /\ value_of z5 0 = Some (Fin (QcofZ 5)) /\ value_of z5 1 = Some (Fin (QcofZ 3)).
Proof. exact z5_runs. Qed.
(** A write announces the domain once, if the value changes. *)
Theorem C76_notifies : forall l H r h v, Forall op_ok l -> run heap0 l = Ok (H, r) -> (h < length (objects l))%nat ->
  exists H', exec H (OpSet h v) = Ok (H', ATold (if opt_same v (value_of l h) then [] else if i_is_empty (domain_of l h) then [] else [EvBegin (domain_of l h); EvEnd (domain_of l h)])).
Proof. exact const_notifies. Qed.
Print Assumptions C76_notifies.
(** Curve.const and Constant make new objects. *)
Theorem C76_fresh : forall l H r v d, Forall op_ok l -> run heap0 l = Ok (H, r) -> (exists H', exec H (OpNew v d) = Ok (H', AObj (length (objects l)))) /\
  exists H', exec H (OpConst v) = Ok (H', AObj (length (objects l))).
Proof. exact const_fresh. Qed.
Print Assumptions C76_fresh.
(** As long as nobody writes to it, zero is zero. *)
Theorem C76_zero : forall l H r w x, Forall op_ok l -> run heap0 l = Ok (H, r) -> (forall v, In (OpSet 0 v) l -> v = Some (Fin 0)) ->
  exec H OpZero = Ok (H, AObj 0) /\ exec H (OpCurveZero w) = Ok (H, AObj 0) /\ exec H (OpY 0 x) = Ok (H, AVal (Some (Fin 0))).
Proof. exact zero_is_zero. Qed.
Print Assumptions C76_zero.
Example C76_zero_ex : exists H r, run heap0 z1 = Ok (H, r) /\ Forall op_ok z1 /\ (forall v, In (OpSet 0 v) z1 -> v = Some (Fin 0)) /\ value_of z1 1 = Some (Fin (QcofZ 3)) /\ (1 < length (objects z1))%nat.
Proof. exact z1_runs. Qed.
(** One object is everybody's zero: after somebody wrote 5 to it, zero() is 5,
    and so is Curve.zero(3). *)
Theorem C76_zero_refuted : exists l H r, Forall op_ok l /\ run heap0 l = Ok (H, r) /\
  exec H OpZero = Ok (H, AObj 0) /\ exec H (OpCurveZero (Some (Fin (QcofZ 3)))) = Ok (H, AObj 0) /\ forall x, exec H (OpY 0 x) = Ok (H, AVal (Some (Fin (QcofZ 5)))).
Proof. exact zero_shared. Qed.
Print Assumptions C76_zero_refuted.
(** x(y) is 0.0 for the value of the constant and None for every other y. *)
Theorem C76_inverse : forall l H r h y, Forall op_ok l -> run heap0 l = Ok (H, r) -> (h < length (objects l))%nat ->
  exec H (OpX h (Some y)) = Ok (H, AVal (match value_of l h with Some v => if xq_eqb y v then Some (Fin 0) else None | None => None end)).
Proof. exact const_inverse. Qed.
Print Assumptions C76_inverse.
(** Constant(5, domain=[3, 4]) has a value outside its domain, and x(5) is outside it. *)
Theorem C76_domain_refuted : exists H r, Forall op_ok bounded /\ run heap0 bounded = Ok (H, r) /\
  exec H (OpDomain 1) = Ok (H, ADom (i_closed (Fin (QcofZ 3)) (Fin (QcofZ 4)))) /\
  i_contains (i_closed (Fin (QcofZ 3)) (Fin (QcofZ 4))) (Fin 0) = false /\
  exec H (OpY 1 (Fin 0)) = Ok (H, AVal (Some (Fin (QcofZ 5)))) /\ exec H (OpX 1 (Some (Fin (QcofZ 5)))) = Ok (H, AVal (Some (Fin 0))).
Proof. exact outside_domain. Qed.
Print Assumptions C76_domain_refuted.
(** The empty curve answers every question with nothing and never raises. *)
Theorem C76_empty : forall (x y : xq) m lim fwd fuel d ms st n b o,
  c_y empty_curve x = Ok None /\ empty_d_y x fwd m lim = Ok None /\ empty_x (T := xq) y = None /\ d_y empty_curve x fwd m lim = Ok None /\
  c_next empty_curve x m lim = Ok None /\ c_prev empty_curve x m lim = Ok None /\ first_point (V := option xq) empty_curve = Ok None /\ last_point (V := option xq) empty_curve = Ok None /\
  sample_points fuel empty_curve d ms st = Ok [] /\ get_range fuel empty_curve d ms st = Ok i_empty /\
  sample_points_from_x (fun v => match v with None => true | Some _ => false end) empty_curve x n b o ms = Ok [].
Proof. exact empty_all. Qed.
Print Assumptions C76_empty.
(** Combining anything with it gives an empty curve. *)
Theorem C76_absorbs : forall (tfm : xq -> list (option xq) -> res (option xq)) cs x, In empty_curve cs ->
  c_dom (aggregate false None tfm cs) = i_empty /\ c_y (aggregate false None tfm cs) x = Ok None.
Proof. exact empty_absorbs. Qed.
Print Assumptions C76_absorbs.
(** extension(name, ...) makes the extension of that name with the arguments it
    was given, ... *)
Theorem C76_extension : forall (name : string) (k : kwds xq) m, extension name k = Ok m ->
  match m with
  | MConstant => name = "constant"%string
  | MTangent t => name = "tangent"%string /\ kw_period k = None /\ tangent_args k = Ok t
  | MSin p t => name = "sin"%string /\ kw_period k = Some p /\ xq_ltb (Fin 0) p = true /\ tangent_args k = Ok t
  end.
Proof. exact ext_kinds. Qed.
Print Assumptions C76_extension.
Theorem C76_extension_mode : forall (k : kwds xq) t, tangent_args k = Ok t ->
  match t with
  | TSlope => kw_degree k = None /\ kw_rperiod k = None
  | TDegree n => kw_rperiod k = None /\ (0 < n)%nat /\ exists d, kw_degree k = Some d /\ n_trunc d = Ok (Z.of_nat n)
  | TPeriod p => kw_degree k = None /\ kw_rperiod k = Some p /\ xq_ltb (Fin 0) p = true
  end.
Proof. exact tangent_modes. Qed.
Print Assumptions C76_extension_mode.
Theorem C76_extension_constant : forall k, extension (T := xq) "constant" k = Ok MConstant <-> k = mkKw None None None.
Proof. exact ext_constant. Qed.
Print Assumptions C76_extension_constant.
(** ... and refuses every other name. *)
Theorem C76_extension_unknown : forall (name : string) (k : kwds xq), ~ In name ["constant"; "tangent"; "sin"]%string -> extension name k = Err EExc.
Proof. exact ext_unknown. Qed.
Print Assumptions C76_extension_unknown.
Example C76_extension_ex : extension (T := xq) "sin" (mkKw None None None) = Err EAssert /\ extension (T := xq) "constant" (mkKw (Some (Fin (QcofZ 2))) None None) = Err EType /\
  extension (T := xq) "sin" (mkKw (Some (Fin (QcofZ 2))) (Some (Fin (QcofZ 3))) None) = Ok (MSin (Fin (QcofZ 2)) (TDegree 3)) /\
  extension (T := xq) "tangent" (mkKw None None None) = Ok (MTangent TSlope).
Proof. exact sin_needs_period. Qed.
