(** Property C17: updates through networks of derived curves. *)
From Coq Require Import List ZArith QArith Qcanon Bool.
From Verif Require Import Base Num NumFacts Interval IntervalFacts Curve Graph PointsOps PointsDec GraphFacts GraphSettle GraphTop.
Import ListNotations.

Theorem C17_network_settles : forall (g : net xq) (s : nstate xq) i d fuel,
  good_net g -> (i < length g)%nat -> (length g <= fuel)%nat -> (forall j, idle (s j)) ->
  iok d -> i_intersects d i_infinite = true ->
  exists s' LB LE, net_update g fuel s i d = Ok (s', LB, LE) /\
  forall j, is_updating (s' j) = false /\
  (depends g i j -> u_dom (s' j) = None /\
     (exists en b, In en LB /\ l_node en = j /\ l_not en = Some b) /\
     (forall en, In en LB -> l_node en = j ->
        exists en' D, In en' LE /\ l_node en' = j /\ l_not en' = Some D /\ i_superset D (l_arg en) = true)) /\
  (~ depends g i j -> s' j = s j /\ forall en, In en (LB ++ LE) -> l_node en <> j).
Proof. exact top_settle. Qed.
Print Assumptions C17_network_settles.

Theorem C17_unshared_notified_once : forall (g : net xq) (s : nstate xq) i d fuel,
  good_net g -> (i < length g)%nat -> (length g <= fuel)%nat -> (forall j, idle (s j)) ->
  iok d -> i_intersects d i_infinite = true -> (forall j, (in_degree g j <= 1)%nat) ->
  exists s' LB LE, net_update g fuel s i d = Ok (s', LB, LE) /\
  forall j, depends g i j -> exists x, i_is_empty x = false /\
    filter (fun en => (l_node en =? j)%nat) LB = [mkL j false x (Some x)] /\
    filter (fun en => (l_node en =? j)%nat) LE = [mkL j true x (Some x)].
Proof. exact top_once. Qed.
Print Assumptions C17_unshared_notified_once.

(** The interval maps used by the code: Map, Aggregate, Piecewise and Quotes pass
    the interval on, Offset shifts it, the Scan family extends it to infinity. *)
Theorem C17_maps_ok : monotone t_id /\ (forall k, monotone (t_shift k)) /\ monotone t_onwards.
Proof. exact (conj good_id (conj good_shift good_onwards)). Qed.
Print Assumptions C17_maps_ok.

Example C17_tree_ex : good_net tree /\ (forall j, (in_degree tree j <= 1)%nat) /\
  rmap (fun r => snd (fst r)) (net_update tree 6 (fun _ => mkU i_empty i_empty (Some src_iv)) 0 src_iv) =
  Ok [mkL 0 false src_iv (Some src_iv); mkL 1 false src_iv (Some src_iv);
      mkL 3 false (mkI (fz 1) PInf false true) (Some (mkI (fz 1) PInf false true));
      mkL 2 false (i_closed (fz 4) (fz 5)) (Some (i_closed (fz 4) (fz 5)));
      mkL 4 false (i_closed (fz 4) (fz 5)) (Some (i_closed (fz 4) (fz 5)));
      mkL 5 false (i_closed (fz 3) (fz 4)) (Some (i_closed (fz 3) (fz 4)))]%nat.
Proof. exact (conj tree_good (conj tree_in_degree tree_run)). Qed.

(** With a shared path the last curve notifies its end twice, the first time
    before one of the curves it reads has ended. *)
Theorem C17_shared_notified_once_refuted : good_net diamond /\
  exists s' LB LE (d : ival xq), net_update diamond 4 (fun _ => upd_init) 0 d = Ok (s', LB, LE) /\
  shape LB = [(0, true); (1, true); (3, true); (2, true); (3, false)]%nat /\
  shape LE = [(0, true); (1, true); (3, true); (2, true); (3, true)]%nat.
Proof. exact (conj diamond_good diamond_twice). Qed.
Print Assumptions C17_shared_notified_once_refuted.
