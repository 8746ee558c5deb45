(** C73: notification callbacks that raise exceptions. *)
From Coq Require Import List ZArith QArith Qcanon Bool.
From Verif Require Import Base Num NumFacts Interval IntervalFacts Curve Points PointsSpec PointsOps PointsDec PointsRefute PointsHist PointsTop PointsEx BaseTop BaseOpt BaseEx Graph Combine CombineEx UpdFacts GraphFacts GraphTop Live LiveSpec LiveFacts LiveTop LivePoints LiveEnd LiveEx LiveReads LiveReadsEx Nest NestEx Fault FaultFacts FaultTop FaultLive FaultEx.
Import ListNotations.

(** a call that is broken off has made the first calls of the run in which
    nothing raises, and left every curve as those calls leave it *)
Theorem C73_prefix : forall (g : net xq) raises fuel s i e d s' L log s2 log2 b,
  net_op g fuel s i e d = Ok (s', L) -> fault_op g raises fuel s log i e d = Ok (s2, log2, b) ->
  exists L1 L2, L = L1 ++ L2 /\ log2 = rev L1 ++ log /\ (b = false -> L2 = [] /\ s2 = s') /\
    (forall j, s2 j = applyl (s j) (proj j L1)).
Proof. exact fault_prefix. Qed.
Print Assumptions C73_prefix.
(** an update broken off at an idle source: before the change, and the source
    stays in the update; or after it, with the source idle, its domain not
    cached, and its own end already announced *)
Theorem C73_source : forall (g : net xq) raises fuel s log i d s' log', good_net g -> idle (s i) -> iok d -> i_intersects d i_infinite = true ->
  attempt g raises fuel s log i d = Ok (s', log', true) ->
  exists new, log' = new ++ log /\
   ((Forall (fun en => l_end en = false) new /\ s' i = mkU d i_empty (u_dom (s i))) \/
    ((exists en, In en new /\ l_node en = i /\ l_end en = true /\ l_not en = Some d) /\ s' i = upd_init)).
Proof. exact (fun g raises fuel s log i d s' log' G => attempt_source g G raises fuel s log i d s' log'). Qed.
Print Assumptions C73_source.
(** whatever calls of begin_update and end_update were made, in any order, with
    callbacks raising at any point: updates that repeat what was begun, and
    during which nothing raises, succeed and leave every curve idle; every curve
    an update reaches announces its interval and forgets its domain *)
Theorem C73_repaired : forall (g : net xq) raises fuel fuel' h s0 log0 s log l, good_net g ->
  (forall j, idle (s0 j)) -> Forall (call_ok g) h -> Fault.calls g raises fuel h s0 log0 = Ok (s, log) ->
  Forall (upd_ok g) l -> (length g <= fuel')%nat ->
  (forall i d, In (i, false, d) h -> exists d', In (i, d') l /\ i_superset d' d = true) ->
  exists s' L, net_updates g fuel' l s = Ok (s', L) /\ forall j,
    idle (s' j) /\ (forall i d y, In (i, d) l -> carried g i d j y -> u_dom (s' j) = None /\
      exists en D, In en L /\ l_node en = j /\ l_end en = true /\ l_not en = Some D /\ i_superset D y = true).
Proof. exact (fun g raises fuel fuel' h s0 log0 s log l G => calls_healed g G raises fuel fuel' h s0 log0 s log l). Qed.
Print Assumptions C73_repaired.
(** with values: after readings, updates broken off in either half and changes
    whose end was broken off, updates that cover them leave every domain and
    every value right, and announce every x at which a curve is not what it was
    at the start *)
Theorem C73_values : forall (ns : list (node xq)) (g : net xq) env0 env s l0 env' s' l L,
  proper ns -> wired ns g -> sources_ok ns env0 ->
  troubled ns g env0 env s l0 -> mended ns g env s env' s' l L ->
  (forall i d, In (i, d) l0 -> exists d', In (i, d') l /\ i_superset d' d = true) ->
  forall j, idle (s' j) /\ (forall d, u_dom (s' j) = Some d -> d = c_dom (curve_of env' ns j)) /\
   (exists s2, read_dom env' ns (S (length ns)) s' j = Ok (s2, c_dom (curve_of env' ns j))) /\
   forall q,
    (c_y (curve_of env' ns j) (Fin q) <> c_y (curve_of env0 ns j) (Fin q) ->
       exists en D, In en L /\ l_node en = j /\ l_end en = true /\ l_not en = Some D /\ imem D (Fin q)) /\
    (local_domain ns j -> i_contains (c_dom (curve_of env' ns j)) (Fin q) <> i_contains (c_dom (curve_of env0 ns j)) (Fin q) ->
       exists en D, In en L /\ l_node en = j /\ l_end en = true /\ l_not en = Some D /\ imem D (Fin q)).
Proof. exact (fun ns g env0 env s l0 env' s' l L W Wg => mended_settled ns W g Wg env0 env s l0 env' s' l L). Qed.
Print Assumptions C73_values.
(** a source left in an update of d stays in it, and nothing is announced by any
    curve, as long as its later updates do not cover d together *)
Theorem C73_silent : forall (g : net xq) fuel i d D, good_net g -> iok d -> iok D -> i_superset D d = false -> forall l s s' L,
  (forall j, wfu (s j)) -> i_superset (u_begin (s i)) d = true -> i_superset D (u_end (s i)) = true ->
  Forall (fun p => fst p = i /\ iok (snd p) /\ i_intersects (snd p) i_infinite = true /\ i_superset D (snd p) = true) l ->
  net_updates g fuel l s = Ok (s', L) ->
  (forall en, In en L -> l_end en = true -> l_node en = i /\ l_not en = None) /\ is_updating (s' i) = true.
Proof. exact (fun g fuel i d D G => stays_silent g G fuel i d D). Qed.
Print Assumptions C73_silent.

(** an end broken off at an idle source leaves a curve over it in the update; a
    later update of the source is not announced by that curve, which keeps
    giving a domain that is no longer its own *)
Theorem C73_stale_refuted : exists (ns : list (node xq)) (env0 env env' : nat -> ncurve) (s s' : nstate xq) l0 d L j,
  proper ns /\ sources_ok ns env0 /\ troubled ns (network ns) env0 env s l0 /\ (forall k, nth_error ns k = Some NSource -> idle (s k)) /\
  iok d /\ mended ns (network ns) env s env' s' [(0%nat, d)] L /\
  is_updating (s j) = true /\ is_updating (s' j) = true /\ (forall en, In en L -> l_node en = j -> l_end en = true -> l_not en = None) /\
  (exists en, In en L /\ l_node en = j /\ l_end en = true) /\
  exists s2 x, read_dom env' ns (S (length ns)) s' j = Ok (s2, x) /\ i_contains x (fz 4) = false /\ i_contains (c_dom (curve_of env' ns j)) (fz 4) = true.
Proof. exact left_behind. Qed.
Print Assumptions C73_stale_refuted.
(** an append broken off by a callback; the next append succeeds, nobody is told
    of it, and the domain does not contain the new point *)
Theorem C73_append_refuted : exists (s s1 s2 : npts) l1 l2 evs x v, honest_history s /\ p_append_list s l1 = (st (p_append_list s l1), evs_of (p_append_list s l1), Ok tt) /\
  p_append_broken s l1 = (s1, evs, Err EExc) /\ p_pts s1 = p_pts s /\ p_append_list s1 l2 = (s2, [], Ok tt) /\
  p_pts s2 = p_pts s ++ l2 /\ In (x, v) l2 /\ u_dom (p_upd s2) = Some (p_dom s) /\ i_contains (p_dom s) x = false.
Proof. exact append_unheard. Qed.
Print Assumptions C73_append_refuted.

Example C73_ex : proper rnet /\ wired rnet (network rnet) /\ sources_ok rnet renv /\
  troubled rnet (network rnet) renv renv' fs3 [(0%nat, rd); (0%nat, rd)] /\
  flag fo1 = true /\ flag fo2 = false /\ flag fo3 = true /\ map (fun j => is_updating (fs3 j)) [0; 1; 2]%nat = [false; false; true] /\
  exists env', mended rnet (network rnet) renv' fs3 env' (out2 (again rd)) [(0%nat, rd)] (logs2 (again rd)) /\
    map (fun j => is_updating (out2 (again rd) j)) [0; 1; 2]%nat = [false; false; false].
Proof. split; [exact rnet_proper|]. split; [apply network_wired|]. split; [exact renv_ok|]. split; [exact fbroken3|].
  split; [vm_compute; reflexivity|]. split; [vm_compute; reflexivity|]. split; [vm_compute; reflexivity|]. split; [vm_compute; reflexivity|].
  destruct (again_mended rd (proj1 rd_ok) (proj2 rd_ok)) as [env' [_ [_ [_ M]]]]; [vm_compute; reflexivity|]. exists env'. split; [exact M|vm_compute; reflexivity].
Qed.
Example C73_silent_ex : good_net (network rnet) /\ (forall j, wfu (fs1 j)) /\ i_superset (u_begin (fs1 0%nat)) rd = true /\
  i_superset (i_point (fz 1)) rd = false /\ exists s' L, net_updates (network rnet) 3 [(0%nat, i_point (fz 1))] fs1 = Ok (s', L).
Proof. split; [exact (g_good rnet rnet_proper (network rnet) (network_wired rnet))|]. split; [exact fs1_wfu|]. split; [vm_compute; reflexivity|]. split; [vm_compute; reflexivity|].
  apply fs1_next. Qed.
