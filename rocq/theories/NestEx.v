(** A callback of a sum updates the other summand; an append from inside the
    begin callback of an append. *)
From Coq Require Import List ZArith QArith Qcanon Bool Lia Arith Permutation.
From Verif Require Import Base Num NumFacts Interval IntervalFacts Curve Points PointsSpec PointsOps PointsDec PointsRefute PointsHist PointsTop PointsEx BaseTop BaseOpt BaseEx Graph Combine CombineFacts CombineTop CombineLine CombinePiece CombineExpr CombineEx UpdFacts GraphFacts GraphSettle GraphTop Live LiveNet LiveSpec LiveFacts LiveTop LivePoints LiveEnd LiveEx LiveReads LiveCalls LiveHist LiveReadsEx Nest NestLog NestSettle NestTop.
Import ListNotations.

(** 0, 1: Points curves; 2: their sum.  When the sum is told that curve 0 begins
    to change, a callback appends a point to curve 1; when the sum is told the
    end, a callback reads its domain *)
Definition mnet : list (node xq) := [ NSource; NSource; NAggregate false None add_f [0; 1]%nat ].
Definition menv : nat -> ncurve := fun _ => p_crv ex_u.
Definition mhook (w : world xq) : list (action xq) :=
  match w_log w with
  | XCall 1 en :: _ => if (l_node en =? 2)%nat then (if l_end en then [ARead 2] else [AUpdate 1 (p_crv ex_u') rd]) else []
  | _ => []
  end.
Definition mfirst : list (action xq) := [ARead 2; AUpdate 0 (p_crv ex_u') rd].

Lemma mnet_proper : proper mnet.
Proof. intros j n E. destruct j as [|[|[|j]]]; cbn in E; try (destruct j; discriminate); injection E as <-; (split; [exact I|repeat constructor]). Qed.
Lemma ex_u'_dom : iok (c_dom (p_crv ex_u')).
Proof. apply points_dom_ok, ex_u'_honest. Qed.
Lemma rd_ok : iok rd /\ i_intersects rd i_infinite = true.
Proof. split; [split; discriminate|vm_compute; reflexivity]. Qed.
Lemma mupdate_ok i : nth_error mnet i = Some NSource -> action_ok mnet (AUpdate i (p_crv ex_u') rd).
Proof. intros E. split; [exact E|]. split; [exact ex_u'_dom|exact rd_ok]. Qed.
Lemma mhook_ok w : Forall (action_ok mnet) (mhook w).
Proof.
  unfold mhook. destruct (w_log w) as [|[[|[|r]] en|j d|i c d] l]; try apply Forall_nil. destruct (l_node en =? 2)%nat; [|apply Forall_nil].
  destruct (l_end en); apply Forall_cons; try apply Forall_nil; [exact I|apply mupdate_ok; reflexivity].
Qed.
Lemma mfirst_ok : Forall (action_ok mnet) mfirst.
Proof. apply Forall_cons; [exact I|]. apply Forall_cons; [apply mupdate_ok; reflexivity|apply Forall_nil]. Qed.

(** every change in the log was asked for *)
Section Sets.
Variable P : nat -> ncurve -> ival xq -> Prop.
Definition asked (a : action xq) : Prop := match a with AUpdate i c d => P i c d | ARead _ => True end.
Definition sets (w : world xq) : Prop := Forall (fun e => match e with XSet i c d => P i c d | _ => True end) (w_log w).
Definition keeps (op : world xq -> nat -> nat -> bool -> ival xq -> res (world xq)) : Prop := forall w r i e d w', op w r i e d = Ok w' -> sets w -> sets w'.
Lemma run_sets ns op l : keeps op -> Forall asked l -> forall w w', run_actions ns op l w = Ok w' -> sets w -> sets w'.
Proof.
  intros K F. induction F as [|a l Fa Fl IH]; intros w w' E S0; cbn [run_actions] in E; [injection E as <-; exact S0|].
  destruct a as [j|i c d].
  - destruct (read_dom (w_env w) ns (S (length ns)) (w_st w) j) as [[s x]|]; [|discriminate]. cbn in E.
    apply (IH _ _ E). apply Forall_cons; [exact I|exact S0].
  - destruct (op w (length (w_log w)) i false d) as [w1|] eqn:E1; [|discriminate]. cbn in E. pose proof (K _ _ _ _ _ _ E1 S0) as S1.
    destruct (op _ _ i true d) as [w2|] eqn:E2 in E; [|discriminate]. cbn in E. apply (IH _ _ E). apply (K _ _ _ _ _ _ E2).
    apply Forall_cons; [exact Fa|exact S1].
Qed.
Lemma nest_sets ns hook g f : (forall w, Forall asked (hook w)) -> keeps (nest_op ns hook g f).
Proof.
  intros HK. induction f as [|f IH]; intros w r i e d w' E S0; [discriminate|]. rewrite nest_op_eq in E.
  destruct (node_op (w_st w i) e d) as [u n]. cbn zeta in E.
  assert (S1 : sets (mkW (w_env w) (set_node (w_st w) i u) (XCall r (Graph.mkL i e d n) :: w_log w))) by (apply Forall_cons; [exact I|exact S0]).
  destruct n as [x|]; [|injection E as <-; exact S1].
  revert E S1. generalize (mkW (w_env w) (set_node (w_st w) i u) (XCall r (Graph.mkL i e d (Some x)) :: w_log w)). generalize (deps g i).
  induction l as [|[c t] l IHl]; intros w1 E S1; cbn [go_nest] in E.
  - destruct (run_actions ns (nest_op ns hook g f) (hook w1) w1) as [w2|] eqn:E2; [|discriminate]. injection E as <-. exact (run_sets _ _ _ IH (HK w1) _ _ E2 S1).
  - destruct (run_actions ns (nest_op ns hook g f) (hook w1) w1) as [w2|] eqn:E2; [|discriminate]. cbn in E.
    destruct (nest_op ns hook g f w2 r c e (t x)) as [w3|] eqn:E3; [|discriminate]. cbn in E.
    apply (IHl _ E). apply (IH _ _ _ _ _ _ E3). exact (run_sets _ _ _ IH (HK w1) _ _ E2 S1).
Qed.
End Sets.

Definition mset (i : nat) (c : ncurve) (d : ival xq) : Prop := c = p_crv ex_u' /\ d = rd.
Lemma mhook_asked w : Forall (asked mset) (mhook w).
Proof.
  unfold mhook. destruct (w_log w) as [|[[|[|r]] en|j d|i c d] l]; try apply Forall_nil. destruct (l_node en =? 2)%nat; [|apply Forall_nil].
  destruct (l_end en); apply Forall_cons; try apply Forall_nil; [exact I|split; reflexivity].
Qed.
Lemma mfirst_asked : Forall (asked mset) mfirst.
Proof. apply Forall_cons; [exact I|]. apply Forall_cons; [split; reflexivity|apply Forall_nil]. Qed.
Lemma mtame env : tame mnet env.
Proof.
  intros j n E. destruct j as [|[|[|j]]]; cbn in E; try (destruct j; discriminate); injection E as <-; cbn [node_tame]; auto.
  intros p [<-|[<-|[]]]; apply ld_source; reflexivity.
Qed.
Lemma ex_u_tells : tells rd (p_crv ex_u) (p_crv ex_u').
Proof.
  destruct (points_tell ex_u lop ex_u' [EvBegin rd; EvEnd rd] ex_u_honest I) as [[X _]|[D [X [_ [_ TL]]]]].
  - discriminate.
  - exact ex_u'_op.
  - intros _. apply top_uniform. eapply (uh_op ex_u lop); [exact ex_u_hist|exact I|exact I|exact ex_u'_op].
  - discriminate.
  - injection X as <-. exact TL.
Qed.
Lemma menv_after l : Forall (fun e => match e with XSet i c d => mset i c d | _ => True end) l -> forall env,
  (forall i, env i = p_crv ex_u \/ env i = p_crv ex_u') -> forall i, env_after env l i = p_crv ex_u \/ env_after env l i = p_crv ex_u'.
Proof.
  induction 1 as [|e l Fe Fl IH]; intros env H; [exact H|]. destruct e as [r en|j d|i c d]; cbn [env_after]; try (apply IH; exact H).
  apply IH. intros k. unfold set_env. destruct (k =? i)%nat; [right; apply Fe|apply H].
Qed.
Lemma mhonest fuel w1 : session mnet mhook (network mnet) fuel mfirst (new_world menv) = Ok w1 ->
  sources_ok mnet menv /\ honest mnet menv (rev (w_log w1)).
Proof.
  intros E. split; [intros j _; apply points_dom_ok, ex_u_honest|].
  assert (F : sets mset w1).
  { apply (run_sets mset _ _ _ (nest_sets mset mnet mhook (network mnet) fuel mhook_asked) mfirst_asked _ _ E). apply Forall_nil. }
  apply Forall_rev in F. intros a i c d b El. rewrite El in F. apply Forall_app in F. destruct F as [Fa Fb]. pose proof (Forall_inv Fb) as [Hc Hd].
  split; [|split; apply mtame]. rewrite Hc, Hd.
  destruct (menv_after a Fa menv (fun _ => or_introl eq_refl) i) as [->| ->]; [exact ex_u_tells|]. intros q [H|H]; exfalso; apply H; reflexivity.
Qed.

(** what the session did: 0 = call of begin / end with the curve and whether it
    fired, 1 = reading with whether 4 is in the domain, 2 = change of a source *)
Definition digest (e : event xq) : nat * nat * bool * bool :=
  match e with
  | XCall _ en => (0%nat, l_node en, l_end en, match l_not en with Some _ => true | None => false end)
  | XRead j d => (1%nat, j, i_contains d (fz 4), false)
  | XSet i _ _ => (2%nat, i, false, false)
  end.
Definition mdigest : list (nat * nat * bool * bool) :=
  [ (1, 2, false, false)
  ; (0, 0, false, true); (0, 2, false, true)
  ; (0, 1, false, true); (0, 2, false, false); (2, 1, false, false); (0, 1, true, true); (0, 2, true, true)
  ; (2, 0, false, false); (0, 0, true, true); (0, 2, true, true)
  ; (1, 2, true, false) ]%nat.
Lemma mnet_session : exists w1, session mnet mhook (network mnet) 9 mfirst (new_world menv) = Ok w1 /\
  map digest (rev (w_log w1)) = mdigest /\
  c_y (curve_of menv mnet 2) (fr 7 2) = Ok None /\ c_y (curve_of (w_env w1) mnet 2) (fr 7 2) = Ok (nv 16) /\
  match u_dom (w_st w1 2%nat) with Some d => i_contains d (fz 4) | None => false end = true.
Proof.
  assert (X : match session mnet mhook (network mnet) 9 mfirst (new_world menv) with Ok w => (map digest (rev (w_log w)), is_v (c_y (curve_of (w_env w) mnet 2) (fr 7 2)) (nv 16), match u_dom (w_st w 2%nat) with Some d => i_contains d (fz 4) | None => false end) | Err _ => ([], false, false) end = (mdigest, true, true)) by (vm_compute; reflexivity).
  destruct (session mnet mhook (network mnet) 9 mfirst (new_world menv)) as [w1|]; [|discriminate].
  exists w1. split; [reflexivity|]. injection X as A B C. split; [exact A|]. split; [vm_compute; reflexivity|]. split; [now apply is_v_eq|exact C].
Qed.

(** an append of 6 whose begin callback appends 7 *)
Definition cb7 (s : npts) : npts * list (ev xq) := fst (p_append s (fz 7, nv 3)).
Definition cb_pair : npts * list (ev xq) * res unit := p_append_cb cb7 ex_n [(fz 6, nv 1)].
Lemma append_cb_nothing (s : npts) l : p_append_cb (fun s => (s, [])) s l = p_append_list s l.
Proof.
  unfold p_append_cb, p_append_list. destruct (p_pts s); [reflexivity|]. destruct (head_opt l) as [a|]; [|reflexivity]. destruct (last_opt l) as [b|]; [|reflexivity].
  destruct (last_opt (p :: l0)) as [z|]; [|reflexivity].
  destruct (n_leb _ _); [reflexivity|]. destruct (p_begin _ _) as [s1 ev1]. rewrite app_nil_r. reflexivity.
Qed.
Lemma append_in_append : exists (s s' : npts) l cb evs, honest_history s /\ PointsSpec.ascending l /\
  (forall s1, cb s1 = fst (p_append s1 (fz 7, nv 3))) /\ p_append_list s l = (st (p_append_list s l), evs_of (p_append_list s l), Ok tt) /\
  p_append_cb cb s l = (s', evs, Ok tt) /\ ~ PointsSpec.ascending (p_pts s').
Proof.
  exists ex_n, (fst (fst cb_pair)), [(fz 6, nv 1)], cb7, (snd (fst cb_pair)).
  split; [exact ex_n_hist|]. split; [apply ascb_sound; vm_compute; reflexivity|]. split; [reflexivity|].
  split; [apply pair3; vm_compute; reflexivity|]. split; [apply pair3; vm_compute; reflexivity|].
  assert (P : p_pts (fst (fst cb_pair)) = p_pts ex_n ++ [(fz 7, nv 3); (fz 6, nv 1)]) by (vm_compute; reflexivity).
  rewrite P. intros A. apply ascending_app_iff in A. destruct A as [_ [[_ A] _]].
  apply Sorted.StronglySorted_inv in A. destruct A as [_ A]. inversion A as [|x0 l0 L _]. vm_compute in L. discriminate.
Qed.
