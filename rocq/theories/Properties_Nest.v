(** C71: updates and readings made from inside notification callbacks. *)
From Coq Require Import List ZArith QArith Qcanon Bool.
From Verif Require Import Base Num NumFacts Interval IntervalFacts Curve Points PointsSpec PointsOps PointsDec PointsRefute PointsHist PointsTop PointsEx BaseTop BaseOpt BaseEx Graph Combine CombineEx UpdFacts GraphFacts GraphTop Live LiveSpec LiveFacts LiveTop LivePoints LiveEnd LiveEx LiveReads LiveCalls LiveHist LiveReadsEx Nest NestLog NestSettle NestTop NestEx.
Import ListNotations.

(** whenever a history of updates and readings, with further updates and
    readings started by callbacks at any depth, comes to an end, every curve is
    idle, holds no stale domain, and reads its recomputed domain *)
Theorem C71_caches : forall (ns : list (node xq)) (g : net xq) (hook : world xq -> list (action xq)) (env : nat -> ncurve) fuel l w1,
  proper ns -> wired ns g -> (forall w, Forall (action_ok ns) (hook w)) -> Forall (action_ok ns) l ->
  session ns hook g fuel l (new_world env) = Ok w1 ->
  forall j, idle (w_st w1 j) /\ (forall d, u_dom (w_st w1 j) = Some d -> d = c_dom (curve_of (w_env w1) ns j)) /\
    exists s', read_dom (w_env w1) ns (S (length ns)) (w_st w1) j = Ok (s', c_dom (curve_of (w_env w1) ns j)).
Proof. exact (fun ns g hook env fuel l w1 W Wg HK HL RUN j =>
  conj (proj1 (nest_settled ns W g Wg hook HK env fuel l w1 HL RUN j))
    (conj (proj2 (nest_settled ns W g Wg hook HK env fuel l w1 HL RUN j)) (nest_domain ns W g Wg hook HK env fuel l w1 HL RUN j))). Qed.
Print Assumptions C71_caches.
(** a reading made after a curve's last notification is the domain of that
    moment, and stays its domain *)
Theorem C71_reads : forall (ns : list (node xq)) (g : net xq) (hook : world xq -> list (action xq)) (env : nat -> ncurve) fuel l w1,
  proper ns -> wired ns g -> (forall w, Forall (action_ok ns) (hook w)) -> Forall (action_ok ns) l ->
  session ns hook g fuel l (new_world env) = Ok w1 ->
  forall past j x fut, rev (w_log w1) = past ++ XRead j x :: fut ->
  ~ (exists r en D, In (XCall r en) fut /\ l_node en = j /\ l_end en = true /\ l_not en = Some D) ->
  x = c_dom (curve_of (env_after env past) ns j) /\ x = c_dom (curve_of (w_env w1) ns j).
Proof. exact (fun ns g hook env fuel l w1 W Wg HK HL RUN => nest_reads ns W g Wg hook HK env fuel l w1 HL RUN). Qed.
Print Assumptions C71_reads.
(** wherever the value of a curve is not the one from before the session, or its
    domain lost or gained the x, one of the curve's end notifications in the
    session covered the x *)
Theorem C71_told : forall (ns : list (node xq)) (g : net xq) (hook : world xq -> list (action xq)) (env : nat -> ncurve) fuel l w1,
  proper ns -> wired ns g -> (forall w, Forall (action_ok ns) (hook w)) -> Forall (action_ok ns) l ->
  session ns hook g fuel l (new_world env) = Ok w1 -> sources_ok ns env -> honest ns env (rev (w_log w1)) ->
  forall j q,
    (c_y (curve_of (w_env w1) ns j) (Fin q) <> c_y (curve_of env ns j) (Fin q) ->
       exists r en D, In (XCall r en) (rev (w_log w1)) /\ l_node en = j /\ l_end en = true /\ l_not en = Some D /\ imem D (Fin q)) /\
    (local_domain ns j -> i_contains (c_dom (curve_of (w_env w1) ns j)) (Fin q) <> i_contains (c_dom (curve_of env ns j)) (Fin q) ->
       exists r en D, In (XCall r en) (rev (w_log w1)) /\ l_node en = j /\ l_end en = true /\ l_not en = Some D /\ imem D (Fin q)).
Proof. exact (fun ns g hook env fuel l w1 W Wg HK HL RUN => nest_told ns W g Wg hook HK env fuel l w1 HL RUN). Qed.
Print Assumptions C71_told.

(** an append from inside the begin callback of an append to the same curve:
    both succeed, and the points are no longer in ascending order *)
Theorem C71_reentrant_refuted : exists (s s' : npts) l cb evs, honest_history s /\ PointsSpec.ascending l /\
  (forall s1, cb s1 = fst (p_append s1 (fz 7, nv 3))) /\ p_append_list s l = (st (p_append_list s l), evs_of (p_append_list s l), Ok tt) /\
  p_append_cb cb s l = (s', evs, Ok tt) /\ ~ PointsSpec.ascending (p_pts s').
Proof. exact append_in_append. Qed.
Print Assumptions C71_reentrant_refuted.

Example C71_ex : proper mnet /\ wired mnet (network mnet) /\ (forall w, Forall (action_ok mnet) (mhook w)) /\ Forall (action_ok mnet) mfirst /\
  exists w1, session mnet mhook (network mnet) 9 mfirst (new_world menv) = Ok w1 /\ sources_ok mnet menv /\ honest mnet menv (rev (w_log w1)) /\
    map digest (rev (w_log w1)) = mdigest /\
    c_y (curve_of menv mnet 2) (fr 7 2) = Ok None /\ c_y (curve_of (w_env w1) mnet 2) (fr 7 2) = Ok (nv 16) /\
    match u_dom (w_st w1 2%nat) with Some d => i_contains d (fz 4) | None => false end = true.
Proof. split; [exact mnet_proper|]. split; [apply network_wired|]. split; [exact mhook_ok|]. split; [exact mfirst_ok|].
  destruct mnet_session as [w1 [E K]]. exists w1. split; [exact E|]. split; [apply (mhonest 9 w1 E)|]. split; [apply (mhonest 9 w1 E)|exact K].
Qed.
