(** f + (-f) with callbacks that raise; an append that nobody hears of. *)
From Coq Require Import List ZArith QArith Qcanon Bool Lia Arith Permutation.
From Verif Require Import Base Num NumFacts Interval IntervalFacts Curve Points PointsSpec PointsOps PointsDec PointsRefute PointsHist PointsTop PointsEx BaseTop BaseOpt BaseEx Graph Combine CombineFacts CombineTop CombineLine CombinePiece CombineExpr CombineEx UpdFacts GraphFacts GraphSettle GraphTop Live LiveNet LiveSpec LiveFacts LiveTop LivePoints LiveEnd LiveEx LiveReads LiveCalls LiveHist LiveReadsEx Nest NestLog NestSettle NestTop NestEx Fault FaultFacts FaultTop FaultLive.
Import ListNotations.

(** the domain of the sum is read; an append is broken off in a begin callback
    after the sum was told; another one in the first end callback of the source *)
Definition raise_begin (log : list (entry xq)) : bool := (length log =? 2)%nat.
Definition raise_end (log : list (entry xq)) : bool := match log with en :: _ => l_end en && (l_node en =? 0)%nat | [] => false end.
Definition never (log : list (entry xq)) : bool := false.
Definition fo1 := fault_op (network rnet) raise_begin 3 rstate [] 0 false rd.
Definition fs1 : nstate xq := match fo1 with Ok (s, _, _) => s | _ => rstate end.
Definition fl1 : list (entry xq) := match fo1 with Ok (_, l, _) => l | _ => [] end.
Definition fo2 := fault_op (network rnet) raise_end 3 fs1 fl1 0 false rd.
Definition fs2 : nstate xq := match fo2 with Ok (s, _, _) => s | _ => rstate end.
Definition fl2 : list (entry xq) := match fo2 with Ok (_, l, _) => l | _ => [] end.
Definition fo3 := fault_op (network rnet) raise_end 3 fs2 fl2 0 true rd.
Definition fs3 : nstate xq := match fo3 with Ok (s, _, _) => s | _ => rstate end.
Definition fl3 : list (entry xq) := match fo3 with Ok (_, l, _) => l | _ => [] end.
Definition renv' : nat -> ncurve := set_env renv 0 (p_crv ex_u').
Definition mark (en : entry xq) : nat * bool * bool := (l_node en, l_end en, match l_not en with Some _ => true | None => false end).
Definition flag (o : res (nstate xq * list (entry xq) * bool)) : bool := match o with Ok (_, _, b) => b | Err _ => false end.
Definition is_ok3 (o : res (nstate xq * list (entry xq) * bool)) : bool := match o with Ok _ => true | Err _ => false end.
Lemma out_eq o b : is_ok3 o = true -> flag o = b -> o = Ok (match o with Ok (s, _, _) => s | _ => rstate end, match o with Ok (_, l, _) => l | _ => [] end, b).
Proof. destruct o as [[[s l] b']|]; [|discriminate]. cbn. now intros _ ->. Qed.

Lemma rtame env : tame rnet env.
Proof.
  intros j n E. destruct j as [|[|[|j]]]; cbn in E; try (destruct j; discriminate); injection E as <-; cbn [node_tame]; auto.
  intros p [<-|[<-|[]]]; [apply ld_source; reflexivity|]. eapply ld_map; [reflexivity|]. apply ld_source. reflexivity.
Qed.
Lemma renv_ok : sources_ok rnet renv.
Proof. intros j _. apply points_dom_ok, ex_u_honest. Qed.
Lemma rread : troubled rnet (network rnet) renv renv rstate [].
Proof.
  destruct (read_dom renv rnet 4 (fun _ => upd_init) 2) as [[s d]|] eqn:E; [|vm_compute in E; discriminate].
  replace rstate with s by (unfold rstate; now rewrite E). eapply tr_read; [apply tr_start|exact E].
Qed.
Lemma fbroken1 : troubled rnet (network rnet) renv renv fs1 [(0%nat, rd)].
Proof.
  apply (tr_begin _ _ _ renv rstate [] raise_begin [] 0%nat rd fs1 fl1); [exact rread|reflexivity|apply rd_ok|apply rd_ok|].
  apply (out_eq fo1); vm_compute; reflexivity.
Qed.
Lemma fbroken3 : troubled rnet (network rnet) renv renv' fs3 [(0%nat, rd); (0%nat, rd)].
Proof.
  apply (tr_change _ _ _ renv fs1 [(0%nat, rd)] raise_end fl1 0%nat (p_crv ex_u') rd fs2 fl2 fs3 fl3 true); [exact fbroken1|reflexivity|exact ex_u'_dom|apply rd_ok|apply rd_ok|exact ex_u_tells|apply rtame|apply rtame| |].
  - apply (out_eq fo2); vm_compute; reflexivity.
  - apply (out_eq fo3); vm_compute; reflexivity.
Qed.
Lemma no_news (d : ival xq) c : tells d c c.
Proof. intros q [H|H]; exfalso; apply H; reflexivity. Qed.
Definition out2 (o : res (nstate xq * list (entry xq) * list (entry xq))) : nstate xq := match o with Ok (s, _, _) => s | _ => rstate end.
Definition logs2 (o : res (nstate xq * list (entry xq) * list (entry xq))) : list (entry xq) := match o with Ok (_, l, l') => l ++ l' | _ => [] end.
Definition again (d : ival xq) := net_update (network rnet) 3 fs3 0 d.
Lemma again_mended d : iok d -> i_intersects d i_infinite = true -> match again d with Ok _ => true | Err _ => false end = true ->
  exists env', env' 0%nat = p_crv ex_u' /\ env' 1%nat = renv 1%nat /\ env' 2%nat = renv 2%nat /\ mended rnet (network rnet) renv' fs3 env' (out2 (again d)) [(0%nat, d)] (logs2 (again d)).
Proof.
  intros Hd Hh E. exists (set_env renv' 0 (p_crv ex_u')). split; [reflexivity|]. split; [reflexivity|]. split; [reflexivity|].
  destruct (again d) as [[[s lb] le]|] eqn:A; [|discriminate]. cbn [out2 logs2].
  replace (lb ++ le) with (lb ++ le ++ []) by now rewrite app_nil_r.
  apply (md_change _ _ renv' fs3 0%nat (p_crv ex_u') d s lb le); [reflexivity|exact ex_u'_dom|exact Hd|exact Hh|apply no_news|apply rtame|apply rtame|exact A|apply md_done].
Qed.

Lemma unheard_b (L : list (entry xq)) j : forallb (fun en => negb (l_node en =? j)%nat || negb (l_end en) || match l_not en with None => true | _ => false end) L = true ->
  forall en, In en L -> l_node en = j -> l_end en = true -> l_not en = None.
Proof.
  intros X en I Ej Ee. rewrite forallb_forall in X. specialize (X en I). cbv beta in X. rewrite Ej, Ee, Nat.eqb_refl in X. cbn in X.
  destruct (l_not en); [discriminate|reflexivity].
Qed.
Lemma called_b (L : list (entry xq)) j : existsb (fun en => (l_node en =? j)%nat && l_end en) L = true -> exists en, In en L /\ l_node en = j /\ l_end en = true.
Proof.
  intros X. apply existsb_exists in X. destruct X as [en [I K]]. apply andb_true_iff in K. destruct K as [K1 K2]. apply Nat.eqb_eq in K1. eauto.
Qed.
Lemma dom_b (o : option (ival xq)) q : match o with Some x => negb (i_contains x q) | None => false end = true -> exists x, o = Some x /\ i_contains x q = false.
Proof. destruct o as [x|]; [|discriminate]. intros H. exists x. split; [reflexivity|]. now apply negb_true_iff. Qed.

(** the sum is left in the update, silent, with its old domain, and an update of
    another x does not change that *)
Lemma left_behind : exists (ns : list (node xq)) (env0 env env' : nat -> ncurve) (s s' : nstate xq) l0 d L j,
  proper ns /\ sources_ok ns env0 /\ troubled ns (network ns) env0 env s l0 /\ (forall k, nth_error ns k = Some NSource -> idle (s k)) /\
  iok d /\ mended ns (network ns) env s env' s' [(0%nat, d)] L /\
  is_updating (s j) = true /\ is_updating (s' j) = true /\ (forall en, In en L -> l_node en = j -> l_end en = true -> l_not en = None) /\
  (exists en, In en L /\ l_node en = j /\ l_end en = true) /\
  exists s2 x, read_dom env' ns (S (length ns)) s' j = Ok (s2, x) /\ i_contains x (fz 4) = false /\ i_contains (c_dom (curve_of env' ns j)) (fz 4) = true.
Proof.
  set (d := i_point (fz 1)). assert (Hd : iok d) by (split; discriminate).
  destruct (again_mended d Hd) as [env' [E0 [E1 [E2 M]]]]; [vm_compute; reflexivity|vm_compute; reflexivity|].
  exists rnet, renv, renv', env', fs3, (out2 (again d)), [(0%nat, rd); (0%nat, rd)], d, (logs2 (again d)), 2%nat.
  split; [exact rnet_proper|]. split; [exact renv_ok|]. split; [exact fbroken3|]. split.
  { intros k Ek. destruct k as [|[|[|k]]]; try discriminate; [|destruct k; discriminate].
    assert (X : fs3 0%nat = upd_init) by (vm_compute; reflexivity). rewrite X. split; reflexivity. }
  split; [exact Hd|]. split; [exact M|]. split; [vm_compute; reflexivity|]. split; [vm_compute; reflexivity|]. split.
  { apply unheard_b. vm_compute. reflexivity. }
  split.
  { apply called_b. vm_compute. reflexivity. }
  destruct (dom_b (u_dom (out2 (again d) 2%nat)) (fz 4)) as [x [Ex Cx]]; [vm_compute; reflexivity|]. exists (out2 (again d)), x.
  split; [generalize dependent (out2 (again d)); intros s' _ Ex; cbn [read_dom length rnet]; rewrite Ex; reflexivity|]. split; [exact Cx|].
  rewrite (curve_eq env' rnet 2 _ rnet_proper eq_refl). unfold curves, rnet. cbn [grow app length]. rewrite E0, E1, E2. vm_compute. reflexivity.
Qed.

(** an append of 7 is broken off; then 6 is appended: it succeeds, nobody is told,
    and the domain does not contain it *)
Definition broken7 : npts * list (ev xq) * res unit := p_append_broken ex_n [(fz 7, nv 3)].
Definition then6 : npts * list (ev xq) * res unit := p_append_list (st broken7) [(fz 6, nv 3)].
Lemma three_eq {A B C} (o : A * B * C) b c : snd (fst o) = b -> snd o = c -> o = (fst (fst o), b, c).
Proof. destruct o as [[? ?] ?]. now intros <- <-. Qed.
Lemma append_unheard : exists (s s1 s2 : npts) l1 l2 evs x v, honest_history s /\ p_append_list s l1 = (st (p_append_list s l1), evs_of (p_append_list s l1), Ok tt) /\
  p_append_broken s l1 = (s1, evs, Err EExc) /\ p_pts s1 = p_pts s /\ p_append_list s1 l2 = (s2, [], Ok tt) /\
  p_pts s2 = p_pts s ++ l2 /\ In (x, v) l2 /\ u_dom (p_upd s2) = Some (p_dom s) /\ i_contains (p_dom s) x = false.
Proof.
  exists ex_n, (st broken7), (st then6), [(fz 7, nv 3)], [(fz 6, nv 3)], (evs_of broken7), (fz 6), (nv 3).
  split; [exact ex_n_hist|]. split; [apply pair3; vm_compute; reflexivity|]. split; [apply (three_eq broken7); vm_compute; reflexivity|]. split; [vm_compute; reflexivity|].
  split; [apply (three_eq then6); vm_compute; reflexivity|]. split; [vm_compute; reflexivity|]. split; [simpl; auto|]. split; vm_compute; reflexivity.
Qed.

Lemma fs1_wfu : forall j, wfu (fs1 j).
Proof.
  pose proof (out_eq fo1 true) as E. specialize (E ltac:(vm_compute; reflexivity) ltac:(vm_compute; reflexivity)).
  refine (proj1 (begin_op (network rnet) (g_good rnet rnet_proper (network rnet) (network_wired rnet)) _ _ _ _ _ _ _ _ _ E _ _ _)); [apply rd_ok|apply rd_ok|].
  intros j. apply wfu_idle. apply (live_r_right rnet rnet_proper (network rnet) (network_wired rnet) renv rstate rstate_live).
Qed.
Lemma fs1_next : exists s' L, net_updates (network rnet) 3 [(0%nat, i_point (fz 1))] fs1 = Ok (s', L).
Proof.
  destruct (updates_total (network rnet) (g_good rnet rnet_proper (network rnet) (network_wired rnet)) 3 [(0%nat, i_point (fz 1))]) with (s := fs1) as [[s' L] E]; eauto.
  constructor; [|constructor]. split; [cbn; lia|]. split; [split; discriminate|vm_compute; reflexivity].
Qed.
