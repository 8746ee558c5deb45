(** C69: in networks of Map, Offset, Aggregate and Piecewise curves over changing
    sources, every x at which a curve changes is told to its observers, and the
    cached domains are never stale. *)
From Coq Require Import List ZArith QArith Qcanon Bool.
From Verif Require Import Base Num NumFacts Interval IntervalFacts Curve Points PointsSpec PointsOps PointsDec PointsRefute PointsHist PointsTop PointsEx BaseTop BaseOpt BaseEx Graph Combine CombineEx UpdFacts GraphFacts GraphTop Live LiveSpec LiveFacts LiveTop LivePoints LiveEnd LiveEx.
Import ListNotations.

(** missing: offsets and intersections of unions (C69_union_gap_refuted), unions
    of curves that have values outside their domains *)
Theorem C69_told_partial : forall (ns : list (node xq)) (g : net xq) (env : nat -> ncurve) (i : nat) (c : ncurve) (d : ival xq) (s : nstate xq) (fuel : nat),
  proper ns -> wired ns g -> sources_ok ns env -> iok (c_dom c) -> tame ns env -> tame ns (set_env env i c) -> nth_error ns i = Some NSource ->
  (forall q, c_y c (Fin q) <> c_y (env i) (Fin q) \/ i_contains (c_dom c) (Fin q) <> i_contains (c_dom (env i)) (Fin q) -> imem d (Fin q)) ->
  iok d -> i_intersects d i_infinite = true -> (forall j, idle (s j)) -> (length ns <= fuel)%nat ->
  exists s' LB LE, net_update g fuel s i d = Ok (s', LB, LE) /\
  forall j q, c_y (curve_of (set_env env i c) ns j) (Fin q) <> c_y (curve_of env ns j) (Fin q) ->
    exists en D, In en LE /\ l_node en = j /\ l_end en = true /\ l_not en = Some D /\ imem D (Fin q).
Proof. exact told_values. Qed.
Print Assumptions C69_told_partial.
(** the same for membership of the domains; missing: unions and what is built on them *)
Theorem C69_domains_told_partial : forall (ns : list (node xq)) (g : net xq) (env : nat -> ncurve) (i : nat) (c : ncurve) (d : ival xq) (s : nstate xq) (fuel : nat),
  proper ns -> wired ns g -> sources_ok ns env -> iok (c_dom c) -> tame ns env -> tame ns (set_env env i c) -> nth_error ns i = Some NSource ->
  tells d (env i) c ->
  iok d -> i_intersects d i_infinite = true -> (forall j, idle (s j)) -> (length ns <= fuel)%nat ->
  exists s' LB LE, net_update g fuel s i d = Ok (s', LB, LE) /\
  forall j q, local_domain ns j ->
    i_contains (c_dom (curve_of (set_env env i c) ns j)) (Fin q) <> i_contains (c_dom (curve_of env ns j)) (Fin q) ->
    told LE j q.
Proof. exact told_domains. Qed.
Print Assumptions C69_domains_told_partial.
(** an operation on a Points source; missing: replace (C09_replace_refuted) *)
Theorem C69_points_partial : forall (ns : list (node xq)) (g : net xq) (env : nat -> ncurve) (u : nstate xq) (i : nat) (s : npts) (o : op (option xq)) (s' : npts) evs (fuel : nat),
  proper ns -> wired ns g -> sources_ok ns env -> tame ns env -> tame ns (set_env env i (p_crv s')) ->
  nth_error ns i = Some NSource -> env i = p_crv s -> (forall j, idle (u j)) -> (length ns <= fuel)%nat ->
  honest_history s -> op_ok o -> (forall q v oa, o <> OReplace q v oa) ->
  run_op s o = (s', evs, Ok tt) -> (p_uniform s' = true -> equally_spaced (p_pts s')) ->
  (evs = [] /\ forall j q, c_y (curve_of (set_env env i (p_crv s')) ns j) (Fin q) = c_y (curve_of env ns j) (Fin q)) \/
  exists D u' LB LE, evs = [EvBegin D; EvEnd D] /\ net_update g fuel u i D = Ok (u', LB, LE) /\
    forall j q, c_y (curve_of (set_env env i (p_crv s')) ns j) (Fin q) <> c_y (curve_of env ns j) (Fin q) -> told LE j q.
Proof. exact points_told. Qed.
Print Assumptions C69_points_partial.
(** domains read through the caches are the recomputed ones, after any history
    of changes and readings *)
Theorem C69_caches : forall (ns : list (node xq)) (g : net xq) (env : nat -> ncurve) (s : nstate xq) (j : nat),
  proper ns -> wired ns g -> live ns g env s -> snd (dom_read (s j) (curve_of env ns j)) = c_dom (curve_of env ns j).
Proof. exact (fun ns g env s j W Wg => live_domain ns W g Wg env s j). Qed.
Print Assumptions C69_caches.
Theorem C69_idle : forall (ns : list (node xq)) (g : net xq) (env : nat -> ncurve) (s : nstate xq) (j : nat),
  proper ns -> wired ns g -> live ns g env s -> idle (s j).
Proof. exact (fun ns g env s j W Wg H => proj2 (live_idle ns W g Wg env s H) j). Qed.
Print Assumptions C69_idle.
(** curves that do not depend on the changed source keep their interface *)
Theorem C69_unaffected : forall (ns : list (node xq)) (g : net xq) (env : nat -> ncurve) (i : nat) (c : ncurve) (j : nat),
  proper ns -> wired ns g -> ~ GraphSettle.depends g i j -> curve_of (set_env env i c) ns j = curve_of env ns j.
Proof. exact (fun ns g env i c j W Wg => not_depends_same ns W g Wg env i c j). Qed.
Print Assumptions C69_unaffected.
(** the other sources *)
Theorem C69_line : forall (u : upd xq) (old new : line xq) u' l evs, idle u -> line_put u old new = (u', l, evs) ->
  (evs = [] /\ l = old) \/
  (evs = [EvBegin i_infinite; EvEnd i_infinite] /\ l = new /\ tells i_infinite (line_curve old) (line_curve new)).
Proof. exact line_tells. Qed.
Print Assumptions C69_line.
Theorem C69_constant : forall (u : upd xq) (old new : xq) u' v evs, idle u -> constant_set i_infinite u old new = (u', v, evs) ->
  (evs = [] /\ v = old) \/
  (evs = [EvBegin i_infinite; EvEnd i_infinite] /\ v = new /\ tells i_infinite (constant_curve old None) (constant_curve new None)).
Proof. exact constant_tells. Qed.
Print Assumptions C69_constant.
(** which curves are None outside their domains, as unions require *)
Theorem C69_none_outside : forall (ns : list (node xq)) (env : nat -> ncurve) (j : nat) (q : Qc),
  proper ns -> sources_ok ns env -> strict ns env j ->
  i_contains (c_dom (curve_of env ns j)) (Fin q) = false -> c_y (curve_of env ns j) (Fin q) = Ok None.
Proof. exact (fun ns env j q W S H => strict_none ns env j W S H q). Qed.
Print Assumptions C69_none_outside.

Theorem C69_union_gap_refuted : exists (ns : list (node xq)) (env : nat -> ncurve) i (s s' : npts) o D j q u' LB LE,
  proper ns /\ sources_ok ns env /\ nth_error ns i = Some NSource /\ env i = p_crv s /\ honest_history s /\
  run_op s o = (s', [EvBegin D; EvEnd D], Ok tt) /\
  net_update (network ns) (length ns) (fun _ => upd_init) i D = Ok (u', LB, LE) /\
  c_y (curve_of env ns j) (Fin q) = Ok None /\ c_y (curve_of (set_env env i (p_crv s')) ns j) (Fin q) = Ok (nv 5) /\ ~ told LE j q.
Proof. exact gap_untold. Qed.
Print Assumptions C69_union_gap_refuted.
Theorem C69_differential_refuted : exists (s s' : npts) o D q,
  honest_history s /\ run_op s o = (s', [EvBegin D; EvEnd D], Ok tt) /\ ~ imem D (Fin q) /\
  c_y (differential true (p_crv s')) (Fin q) <> c_y (differential true (p_crv s)) (Fin q).
Proof. exact differential_untold. Qed.
Print Assumptions C69_differential_refuted.
Theorem C69_constant_refuted : exists (dom : ival xq) a b q u', iok dom /\ i_is_empty dom = false /\ ~ imem dom (Fin q) /\
  constant_set dom upd_init (Fin a) (Fin b) = (u', Fin b, [EvBegin dom; EvEnd dom]) /\
  c_y (constant_curve (Fin b) (Some dom)) (Fin q) <> c_y (constant_curve (Fin a) (Some dom)) (Fin q).
Proof. exact constant_untold. Qed.
Print Assumptions C69_constant_refuted.

Example C69_ex : proper lnet /\ wired lnet (network lnet) /\
  (forall c : ncurve, iok (c_dom c) -> none_outside c -> sources_ok lnet (set_env lenv 0 c) /\ tame lnet (set_env lenv 0 c)) /\
  honest_history ex_u /\ run_op ex_u lop = (ex_u', [EvBegin (mkI (fz 3) (fz 4) true false); EvEnd (mkI (fz 3) (fz 4) true false)], Ok tt) /\
  map (fun j => c_y (curve_of lenv lnet j) (fr 27 2)) [3; 5]%nat = [Ok None; Ok None] /\
  map (fun j => c_y (curve_of (set_env lenv 0 (p_crv ex_u')) lnet j) (fr 27 2)) [3; 5]%nat = [Ok (nv 8); Ok (nv 8)] /\
  exists s' LB LE, net_update (network lnet) 7 (fun _ => upd_init) 0 (mkI (fz 3) (fz 4) true false) = Ok (s', LB, LE) /\
    In (3%nat, Some (mkI (fz 13) (fz 14) true false)) (ends_of LE) /\ In (5%nat, Some (mkI (fz 3) (fz 14) true false)) (ends_of LE).
Proof.
  split; [exact lnet_proper|]. split; [apply network_wired|]. split; [intros c O K; split; [now apply lnet_sources|now apply lnet_tame]|].
  split; [exact ex_u_honest|]. split; [exact ex_u'_op|]. split; [apply lnet_values|]. split; [apply lnet_values|].
  destruct lnet_log as [s' [LB [LE [E L]]]]. exists s', LB, LE. split; [exact E|]. rewrite L. split; simpl; tauto.
Qed.
