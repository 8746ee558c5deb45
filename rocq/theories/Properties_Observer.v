(** Properties C12-C16: observers and the begin/end protocol. *)
From Coq Require Import List ZArith QArith Qcanon Bool.
From Verif Require Import Base Num NumFacts Interval IntervalFacts Curve Observer ObserverSpec ObserverFacts ObserverNotify PointsOps UpdFacts ObserverTop ObserverEx.
Import ListNotations.

(** ** C12 order and selection of the observers *)
Theorem C12_registry_refines : forall (n0 : Z) (ops : list (rop xq)), (0 <= n0)%Z ->
  snd (run code_step (reg_init n0) ops) = snd (run spec_step ([], n0) ops) /\
  r_tokens (reached n0 ops) = map e_tok (order (live n0 ops)).
Proof. exact top_registry. Qed.
Print Assumptions C12_registry_refines.
Theorem C12_begin_calls : forall (n0 : Z) (ops : list (rop xq)) alive fuel (u : upd xq) d u' D,
  (0 <= n0)%Z -> passive (live n0 ops) -> (length (live n0 ops) < fuel)%nat -> begin_update u d = (u', Some D) ->
  ob_begin alive fuel (u, reached n0 ops) d =
    ((u', reached n0 ops), flat_map (begin_calls D) (order (live n0 ops)), Ok tt).
Proof. exact top_begin_calls. Qed.
Print Assumptions C12_begin_calls.
Theorem C12_end_calls : forall (n0 : Z) (ops : list (rop xq)) alive (u : upd xq) d u' D,
  (0 <= n0)%Z -> passive (live n0 ops) -> end_update u d = (u', Some D) ->
  ob_end alive (u, reached n0 ops) d =
    ((u', reached n0 ops), flat_map (end_calls D) (order (live n0 ops)), Ok tt).
Proof. exact top_end_calls. Qed.
Print Assumptions C12_end_calls.
Theorem C12_at_most_once : forall (n0 : Z) (ops : list (rop xq)) (d : ival xq), (0 <= n0)%Z ->
  NoDup (map k_tok (flat_map (begin_calls d) (order (live n0 ops)))) /\
  NoDup (map k_tok (flat_map (end_calls d) (order (live n0 ops)))).
Proof. exact top_at_most_once. Qed.
Print Assumptions C12_at_most_once.
(** four observers: 1 and 3 normal, 2 and 4 prioritised, 3 not touched by [0,1] *)
Example C12_ex : passive (live 0 ops4) /\ length (live 0 ops4) = 4%nat /\
  begin_update upd_init unit_iv = (mkU unit_iv i_empty None, Some unit_iv) /\
  snd (fst (ob_begin all_alive 5 (upd_init, reached 0 ops4) unit_iv)) =
    [mkCall 4 false (Some unit_iv); mkCall 2 false None; mkCall 1 false (Some unit_iv)].
Proof. split; [repeat constructor|]. split; [reflexivity|]. split; vm_compute; reflexivity. Qed.

(** ** C13 a complete update *)
Theorem C13_round : forall (n0 : Z) (ops : list (rop xq)) alive fuel (u : upd xq) d,
  (0 <= n0)%Z -> passive (live n0 ops) -> (length (live n0 ops) < fuel)%nat ->
  u_begin u = i_empty -> u_end u = i_empty -> iok d -> i_is_empty d = false ->
  exists u1, ob_begin alive fuel (u, reached n0 ops) d =
    ((u1, reached n0 ops), flat_map (begin_calls d) (order (live n0 ops)), Ok tt) /\
  is_updating u1 = true /\
  ob_end alive (u1, reached n0 ops) d =
    ((upd_init, reached n0 ops), flat_map (end_calls d) (order (live n0 ops)), Ok tt).
Proof. exact top_round. Qed.
Print Assumptions C13_round.
Theorem C13_empty_update : forall (c : ocurve) alive fuel (d : ival xq), i_is_empty d = true ->
  ob_begin alive fuel c d = (c, [], Ok tt) /\ ob_end alive c d = (c, [], Ok tt).
Proof. exact top_empty_update. Qed.
Print Assumptions C13_empty_update.
Example C13_ex : iok unit_iv /\ i_is_empty unit_iv = false /\
  snd (fst (ob_end all_alive (mkU unit_iv i_empty (Some iv04), reached 0 ops4) unit_iv)) =
    [mkCall 2 true None; mkCall 1 true None] /\
  u_dom (fst (fst (fst (ob_end all_alive (mkU unit_iv i_empty (Some iv04), reached 0 ops4) unit_iv)))) = None.
Proof. split; [split; discriminate|]. repeat split; vm_compute; reflexivity. Qed.

(** ** C14 nested updates *)
Theorem C14_end_covers : forall (u : upd xq) B E d u' D, phase u B E -> iok d -> end_update u d = (u', Some D) ->
  hull (d :: E) D /\ (forall b, In b B -> i_superset D b = true) /\ u' = upd_init.
Proof. exact end_fires. Qed.
Print Assumptions C14_end_covers.
Theorem C14_end_iff_covered : forall (u : upd xq) B E d h,
  phase u B E -> iok d -> i_is_empty d = false -> iok h -> hull (d :: E) h ->
  (exists u' D, end_update u d = (u', Some D)) <-> (forall b, In b B -> i_superset h b = true).
Proof. exact end_fires_iff. Qed.
Print Assumptions C14_end_iff_covered.
Theorem C14_all_ended_idle : forall l, Forall (fun o => iok (pop_ival o)) l ->
  (forall l1 d l2, l = l1 ++ PBegin d :: l2 -> In (PEnd d) l2) ->
  is_updating (prun upd_init l) = false.
Proof. exact all_ended_idle. Qed.
Print Assumptions C14_all_ended_idle.
(** begin [1,2], begin [0,4], end [1,2] waits, end [0,4] fires with [0,4] *)
Example C14_ex : exists u1 u2 u3 u4,
  begin_update upd_init iv12 = (u1, Some iv12) /\ begin_update u1 iv04 = (u2, Some iv04) /\
  end_update u2 iv12 = (u3, None) /\ end_update u3 iv04 = (u4, Some iv04) /\
  phase u3 [iv04; iv12] [iv12] /\ is_updating u3 = true /\ is_updating u4 = false.
Proof. exact nested_in_order. Qed.
(** ending the covering update first notifies the end twice *)
Theorem C14_one_end_notification_refuted : exists (a b : ival xq) u1 u2 u3 u4,
  begin_update upd_init a = (u1, Some a) /\ begin_update u1 b = (u2, Some b) /\
  end_update u2 b = (u3, Some b) /\ is_updating u3 = false /\
  end_update u3 a = (u4, Some a).
Proof. exact nested_end_twice. Qed.
Print Assumptions C14_one_end_notification_refuted.

(** ** C15 tokens and removal *)
Theorem C15_tokens_fresh : forall (n0 : Z) (ops1 ops2 : list (rop xq)) t1 t2, (0 <= n0)%Z ->
  In (Ok t1) (snd (run code_step (reg_init n0) ops1)) ->
  In (Ok t2) (snd (run code_step (reached n0 ops1) ops2)) -> t2 <> 0%Z -> (t1 < t2)%Z /\ (0 < t2)%Z.
Proof. exact top_tokens_fresh. Qed.
Print Assumptions C15_tokens_fresh.
Theorem C15_add : forall (n0 : Z) (ops : list (rop xq)) obj dom b e autoremove p, (0 <= n0)%Z ->
  (b <> None \/ e <> None) -> (autoremove = false \/ obj <> None) ->
  exists t, snd (add_observer (reached n0 ops) obj dom b e autoremove p) = Ok t /\ (0 < t)%Z /\
    r_tokens (fst (add_observer (reached n0 ops) obj dom b e autoremove p)) =
      (if p then t :: r_tokens (reached n0 ops) else r_tokens (reached n0 ops) ++ [t]) /\
    ~ In t (r_tokens (reached n0 ops)).
Proof. exact top_add. Qed.
Print Assumptions C15_add.
Theorem C15_add_none : forall (r : reg xq) obj dom autoremove p,
  add_observer r obj dom None None autoremove p = (r, Ok 0%Z).
Proof. exact top_add_none. Qed.
Print Assumptions C15_add_none.
Theorem C15_remove_token : forall (n0 : Z) (ops : list (rop xq)) t, (0 <= n0)%Z ->
  let r' := remove_token (reached n0 ops) t in
  r_tokens r' = filter (fun x => negb (x =? t)%Z) (r_tokens (reached n0 ops)) /\ ~ In t (r_tokens r').
Proof. exact top_remove_token. Qed.
Print Assumptions C15_remove_token.
Theorem C15_remove_token_final : forall (n0 : Z) (ops : list (rop xq)) t (u : upd xq) l, (0 <= n0)%Z ->
  In t (r_tokens (reached n0 ops)) ->
  forall k, In k (snd (oop_run (u, remove_token (reached n0 ops) t) l)) -> k_tok k <> t.
Proof. exact top_remove_final. Qed.
Print Assumptions C15_remove_token_final.
Theorem C15_remove_obj : forall (n0 : Z) (ops : list (rop xq)) alive o, (0 <= n0)%Z ->
  exists r', remove_obj alive (reached n0 ops) o = (r', Ok tt) /\
    r_tokens r' = map e_tok (order (filter (fun e => negb (drops alive o e)) (live n0 ops))).
Proof. exact top_remove_obj. Qed.
Print Assumptions C15_remove_obj.
Theorem C15_remove_obj_final : forall (n0 : Z) (ops : list (rop xq)) alive o (u : upd xq) l e, (0 <= n0)%Z ->
  In e (live n0 ops) -> drops alive o e = true ->
  forall k, In k (snd (oop_run (u, fst (remove_obj alive (reached n0 ops) o)) l)) -> k_tok k <> e_tok e.
Proof. exact top_remove_obj_final. Qed.
Print Assumptions C15_remove_obj_final.
Example C15_ex : r_tokens (reached 0 ops4) = [4; 2; 1; 3]%Z /\
  r_tokens (remove_token (reached 0 ops4) 2) = [4; 1; 3]%Z /\
  r_tokens (fst (remove_obj all_alive (reached 0 ops4) 7)) = [2; 3]%Z /\
  snd (run code_step (reg_init 0) ops4) = [Ok 1; Ok 2; Ok 3; Ok 4]%Z.
Proof. repeat split; vm_compute; reflexivity. Qed.

(** ** C16 callbacks that remove observers *)
Theorem C16_end_removals_behind : forall (n0 : Z) (ops : list (rop xq)) alive (u : upd xq) d u' D, (0 <= n0)%Z ->
  end_update u d = (u', Some D) ->
  (forall l1 e l2, order (live n0 ops) = l1 ++ e :: l2 ->
     exists ts, removes (e_end e) ts /\ forall e', In e' l2 -> ~ In (e_tok e') ts) ->
  exists r', ob_end alive (u, reached n0 ops) d = ((u', r'), flat_map (end_calls D) (order (live n0 ops)), Ok tt).
Proof. exact top_end_backward. Qed.
Print Assumptions C16_end_removals_behind.
Theorem C16_begin_never_raises : forall (n0 : Z) (ops : list (rop xq)) alive fuel (u : upd xq) d, (0 <= n0)%Z ->
  (length (live n0 ops) < fuel)%nat ->
  Forall (fun e => exists ts, removes (e_begin e) ts) (live n0 ops) ->
  snd (ob_begin alive fuel (u, reached n0 ops) d) = Ok tt.
Proof. exact top_begin_no_raise. Qed.
Print Assumptions C16_begin_never_raises.
Theorem C16_begin_removals_ahead : forall (n0 : Z) (ops : list (rop xq)) alive fuel (u : upd xq) d u' D, (0 <= n0)%Z ->
  (length (live n0 ops) < fuel)%nat -> begin_update u d = (u', Some D) ->
  (forall l1 e l2, order (live n0 ops) = l1 ++ e :: l2 ->
     exists ts, removes (e_begin e) ts /\ ~ In (e_tok e) ts /\ forall e', In e' l1 -> ~ In (e_tok e') ts) ->
  exists r' log, ob_begin alive fuel (u, reached n0 ops) d = ((u', r'), log, Ok tt) /\
    forall e, In e (live n0 ops) -> In (e_tok e) (r_tokens r') -> forall k, In k (begin_calls D e) -> In k log.
Proof. exact top_begin_forward. Qed.
Print Assumptions C16_begin_removals_ahead.
(** the second observer's end callback removes the first and itself; the first
    observer's begin callback removes the second *)
Example C16_ex :
  (forall l1 e l2, order (live 0 ops_back) = l1 ++ e :: l2 ->
     exists ts, removes (e_end e) ts /\ forall e', In e' l2 -> ~ In (e_tok e') ts) /\
  (forall l1 e l2, order (live 0 ops_fwd) = l1 ++ e :: l2 ->
     exists ts, removes (e_begin e) ts /\ ~ In (e_tok e) ts /\ forall e', In e' l1 -> ~ In (e_tok e') ts) /\
  map k_tok (snd (fst (ob_end all_alive (mkU unit_iv i_empty None, reached 0 ops_back) unit_iv))) = [1; 2; 3]%Z /\
  map k_tok (snd (fst (ob_begin all_alive 4 (upd_init, reached 0 ops_fwd) unit_iv))) = [1; 3]%Z.
Proof.
  split; [exact ops_back_ok|]. split; [exact ops_fwd_ok|]. split; vm_compute; reflexivity.
Qed.
Theorem C16_end_removal_raises_refuted : exists (ops : list (rop xq)) (u u' : upd xq) (d : ival xq) r ks,
  end_update u d = (u', Some d) /\ length (live 0 ops) = 3%nat /\
  ob_end all_alive (u, reached 0 ops) d = ((u', r), ks, Err EKey) /\
  r_tokens r = [1; 3]%Z /\ map k_tok ks = [1]%Z.
Proof. exact end_removal_raises. Qed.
Print Assumptions C16_end_removal_raises_refuted.
Theorem C16_begin_removal_skips_refuted : exists (ops : list (rop xq)) (u u' : upd xq) (d : ival xq) r ks,
  begin_update u d = (u', Some d) /\ length (live 0 ops) = 3%nat /\
  ob_begin all_alive 4 (u, reached 0 ops) d = ((u', r), ks, Ok tt) /\
  r_tokens r = [2; 3]%Z /\ map k_tok ks = [1; 3]%Z.
Proof. exact begin_removal_skips. Qed.
Print Assumptions C16_begin_removal_skips_refuted.
Theorem C16_begin_registration_loops_refuted : forall fuel, exists (ops : list (rop xq)),
  length (live 0 ops) = 1%nat /\
  snd (ob_begin all_alive fuel (upd_init, reached 0 ops) unit_iv) = Err EFuel.
Proof. exact begin_add_loops. Qed.
Print Assumptions C16_begin_registration_loops_refuted.
