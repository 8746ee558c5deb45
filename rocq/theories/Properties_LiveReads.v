(** C70: domains read from inside notification callbacks never leave a stale
    cache behind, and do not disturb the notifications. *)
From Coq Require Import List ZArith QArith Qcanon Bool.
From Verif Require Import Base Num NumFacts Interval IntervalFacts Curve Points PointsSpec PointsOps PointsDec PointsRefute PointsHist PointsTop PointsEx BaseTop BaseOpt BaseEx Graph Combine CombineEx UpdFacts GraphFacts GraphTop Live LiveSpec LiveFacts LiveTop LivePoints LiveEnd LiveEx LiveReads LiveCalls LiveHist LiveReadsEx.
Import ListNotations.

(** after any history of changes, with any readings in their callbacks and in
    between, every curve is idle and the domain read is the recomputed one *)
Theorem C70_domains : forall (ns : list (node xq)) (g : net xq) (env : nat -> ncurve) (s : nstate xq) (j : nat),
  proper ns -> wired ns g -> live_r ns g env s ->
  exists s', read_dom env ns (S (length ns)) s j = Ok (s', c_dom (curve_of env ns j)).
Proof. exact (fun ns g env s j W Wg => live_r_domain ns W g Wg env s j). Qed.
Print Assumptions C70_domains.
Theorem C70_caches : forall (ns : list (node xq)) (g : net xq) (env : nat -> ncurve) (s : nstate xq) (j : nat),
  proper ns -> wired ns g -> live_r ns g env s ->
  idle (s j) /\ forall d, u_dom (s j) = Some d -> d = c_dom (curve_of env ns j).
Proof. exact (fun ns g env s j W Wg H => conj (proj1 (proj2 (live_r_right ns W g Wg env s H)) j) (proj2 (proj2 (live_r_right ns W g Wg env s H)) j)). Qed.
Print Assumptions C70_caches.
(** the calls and notifications of a change are those it makes without readings;
    begin callbacks read the domains from before the change; once a curve has
    made its last notification, callbacks read its new domain *)
Theorem C70_change : forall (ns : list (node xq)) (g : net xq) (env : nat -> ncurve) (s : nstate xq) (i : nat) (c : ncurve) (d : ival xq) (hook : nat -> list nat),
  proper ns -> wired ns g -> live_r ns g env s -> nth_error ns i = Some NSource -> iok d -> i_intersects d i_infinite = true ->
  exists s0 LB LE s' lb le,
    net_update g (length ns) s i d = Ok (s0, LB, LE) /\ net_update_r ns env hook g (length ns) s i c d = Ok (s', lb, le) /\
    calls lb = LB /\ calls le = LE /\
    (forall j x, In (IRead j x) lb -> x = c_dom (curve_of env ns j)) /\
    (forall l1 j x l2, le = l1 ++ IRead j x :: l2 -> ~ (exists en D, In en (calls l2) /\ l_node en = j /\ l_not en = Some D) ->
       x = c_dom (curve_of (set_env env i c) ns j)).
Proof. exact (fun ns g env s i c d hook W Wg => live_r_change ns W g Wg env s i c d hook). Qed.
Print Assumptions C70_change.

(** f + f.map(g): the sum is told of an appended point before the map is; a
    callback that then reads the sum's domain does not find the point in it *)
Theorem C70_mid_update_refuted : exists (ns : list (node xq)) (env : nat -> ncurve) (s : nstate xq) i (p p' : npts) o D hook s' lb le,
  proper ns /\ live_r ns (network ns) env s /\ nth_error ns i = Some NSource /\ env i = p_crv p /\ honest_history p /\
  run_op p o = (p', [EvBegin D; EvEnd D], Ok tt) /\
  net_update_r ns env hook (network ns) (length ns) s i (p_crv p') D = Ok (s', lb, le) /\
  exists l1 en j x l2 E q, le = l1 ++ ICall en :: IRead j x :: l2 /\ l_node en = j /\ l_not en = Some E /\ imem E (Fin q) /\
    i_contains x (Fin q) = false /\
    i_contains (c_dom (curve_of (set_env env i (p_crv p')) ns j)) (Fin q) = true /\
    c_y (curve_of (set_env env i (p_crv p')) ns j) (Fin q) = Ok (nv 0).
Proof. exact stale_read. Qed.
Print Assumptions C70_mid_update_refuted.

Example C70_ex : proper rnet /\ wired rnet (network rnet) /\ live_r rnet (network rnet) renv rstate /\ nth_error rnet 0 = Some NSource /\
  iok rd /\ i_intersects rd i_infinite = true /\ map (fun j => match u_dom (rstate j) with Some d => i_contains d (fz 3) | None => false end) [0; 1; 2]%nat = [true; true; true] /\
  exists s' lb le, net_update_r rnet renv rhook (network rnet) 3 rstate 0 (p_crv ex_u') rd = Ok (s', lb, le) /\
    seen (fz 4) lb = [false; false; false; false; false; false] /\ seen (fz 4) le = [false; false; false; false; true; true; true].
Proof.
  split; [exact rnet_proper|]. split; [apply network_wired|]. split; [exact rstate_live|]. split; [reflexivity|]. split; [split; discriminate|].
  split; [vm_compute; reflexivity|]. split; [vm_compute; reflexivity|]. exact rnet_seen.
Qed.
