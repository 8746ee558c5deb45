(** A network over Points, and the combinations whose changes go untold. *)
From Coq Require Import List ZArith QArith Qcanon Bool Lia Arith Permutation.
From Verif Require Import Base Num NumFacts Interval IntervalFacts Curve Points PointsSpec PointsOps PointsDec PointsRefute PointsHist PointsTop PointsEx BaseTop BaseOpt BaseEx Graph Combine CombineFacts CombineTop CombineLine CombinePiece CombineExpr CombineEx UpdFacts GraphFacts GraphSettle GraphTop Live LiveNet LiveSpec LiveFacts LiveTop LivePoints LiveEnd.
Import ListNotations.

(** 0: a Points curve; 1: -f; 2: f + (-f); 3: f moved right by 10; 4: a constant
    100; 5: the first of f and the moved f; 6: f up to 1, then the constant *)
Definition lnet : list (node xq) :=
  [ NSource;
    NMap false MIN_STEP additive_inverse_f 0;
    NAggregate false None add_f [0; 1; 0]%nat;
    NOffset (fz 10) 0;
    NSource;
    NAggregate true None first_val [0; 3]%nat;
    NPiecewise true [(0%nat, iv (fz 0) (fz 1) false true); (4%nat, iv (fz 1) (fz 9) false false)] ].
Definition lenv : nat -> ncurve := set_env (fun _ => constant_curve (fz 100) None) 0 (p_crv ex_u).
Definition lop : op (option xq) := OAppend (QcofZ 4) (nv 7).
Definition ex_u' : npts := st (run_op ex_u lop).

Lemma lnet_proper : proper lnet.
Proof.
  intros j n E. destruct j as [|[|[|[|[|[|[|j]]]]]]]; cbn in E; try (destruct j; discriminate); injection E as <-; (split; [|repeat constructor]).
  all: cbn; auto.
  - exists (QcofZ 10). reflexivity.
  - repeat constructor; discriminate.
Qed.
Lemma lnet_local p : p <> 5%nat -> (p < 7)%nat -> local_domain lnet p.
Proof.
  assert (L0 : local_domain lnet 0) by (apply ld_source; reflexivity).
  assert (L1 : local_domain lnet 1) by (eapply ld_map; [reflexivity|exact L0]).
  intros N L. destruct p as [|[|[|[|[|[|[|p]]]]]]]; try lia; auto.
  - eapply ld_agg; [reflexivity|]. intros p [<-|[<-|[<-|[]]]]; auto.
  - eapply ld_offset; [reflexivity|auto].
  - apply ld_source; reflexivity.
  - eapply ld_pieces; reflexivity.
Qed.
Lemma lnet_sources (c : ncurve) : iok (c_dom c) -> sources_ok lnet (set_env lenv 0 c).
Proof.
  intros O j E. unfold set_env, lenv, set_env. destruct (j =? 0)%nat; auto. split; discriminate.
Qed.
Lemma lnet_tame (c : ncurve) : iok (c_dom c) -> none_outside c -> tame lnet (set_env lenv 0 c).
Proof.
  intros O K j n E. destruct j as [|[|[|[|[|[|[|j]]]]]]]; cbn in E; try (destruct j; discriminate); injection E as <-; cbn [node_tame]; auto.
  - intros p [<-|[<-|[<-|[]]]]; apply lnet_local; lia.
  - apply lnet_local; lia.
  - split; [|reflexivity]. intros p [<-|[<-|[]]]; (apply strict_none; [exact lnet_proper|now apply lnet_sources|]).
    + apply st_source; [reflexivity|]. exact K.
    + eapply st_offset. reflexivity.
Qed.

Lemma ex_u'_op : run_op ex_u lop = (ex_u', [EvBegin (mkI (fz 3) (fz 4) true false); EvEnd (mkI (fz 3) (fz 4) true false)], Ok tt).
Proof. unfold ex_u', st. apply pair3. vm_compute. reflexivity. Qed.
Lemma ex_u'_honest : honest_history ex_u'.
Proof.
  apply uniform_honest. eapply (uh_op ex_u lop); [exact ex_u_hist|exact I|exact I|exact ex_u'_op].
Qed.
Lemma lenv_self : forall j, set_env lenv 0 (p_crv ex_u) j = lenv j.
Proof. intros j. unfold lenv, set_env. destruct (j =? 0)%nat; reflexivity. Qed.

(** the values before and after, at 7/2 and at 27/2 *)
Lemma lnet_values :
  map (fun j => c_y (curve_of lenv lnet j) (fr 7 2)) [0; 1; 2]%nat = [Ok None; Ok None; Ok None] /\
  map (fun j => c_y (curve_of (set_env lenv 0 (p_crv ex_u')) lnet j) (fr 7 2)) [0; 1; 2]%nat = [Ok (nv 8); Ok (nv (-8)); Ok (nv 8)] /\
  map (fun j => c_y (curve_of lenv lnet j) (fr 27 2)) [3; 5]%nat = [Ok None; Ok None] /\
  map (fun j => c_y (curve_of (set_env lenv 0 (p_crv ex_u')) lnet j) (fr 27 2)) [3; 5]%nat = [Ok (nv 8); Ok (nv 8)].
Proof. cbn [map]. repeat split; repeat (f_equal; try val). Qed.

(** the notifications: f, -f and the sum tell (3, 4], the moved curve (13, 14],
    the union both *)
Definition ends_of (l : list (entry xq)) : list (nat * option (ival xq)) := map (fun en => (l_node en, l_not en)) l.
Lemma lnet_log : exists s' LB LE, net_update (network lnet) 7 (fun _ => upd_init) 0 (mkI (fz 3) (fz 4) true false) = Ok (s', LB, LE) /\
  ends_of LE = [(0%nat, Some (mkI (fz 3) (fz 4) true false));
                (6%nat, Some (mkI (fz 3) (fz 4) true false));
                (5%nat, None);
                (3%nat, Some (mkI (fz 13) (fz 14) true false));
                (5%nat, Some (mkI (fz 3) (fz 14) true false));
                (2%nat, Some (mkI (fz 3) (fz 4) true false));
                (1%nat, Some (mkI (fz 3) (fz 4) true false));
                (2%nat, Some (mkI (fz 3) (fz 4) true false))].
Proof.
  destruct (net_update (network lnet) 7 (fun _ => upd_init) 0 (mkI (fz 3) (fz 4) true false)) as [[[s' LB] LE]|] eqn:E.
  2:{ vm_compute in E. discriminate. }
  exists s', LB, LE. split; auto.
  revert E. vm_compute. intros E. injection E as <- <- <-. reflexivity.
Qed.

(** ** What goes untold *)
(** min(first(a, b), 5): when b gets its first point beyond a's domain, the
    domain of first(a, b) grows over the gap between them; there the minimum
    changes from None to 5, and nobody is told *)
Definition gnet : list (node xq) :=
  [ NSource; NSource; NAggregate true None first_val [0; 1]%nat; NSource; NAggregate false None min_vals [2; 3]%nat ].
Definition gb : npts := st (p_init [] ILinear false).
Definition gop : op (option xq) := OAppend (QcofZ 9) (nv 7).
Definition gb' : npts := st (run_op gb gop).
Definition genv : nat -> ncurve := set_env (set_env (fun _ => constant_curve (fz 5) None) 0 (p_crv ex_u)) 1 (p_crv gb).
Lemma gnet_proper : proper gnet.
Proof.
  intros j n E. destruct j as [|[|[|[|[|j]]]]]; cbn in E; try (destruct j; discriminate); injection E as <-; (split; [exact I|repeat constructor]).
Qed.
Lemma gb_honest : honest_history gb.
Proof.
  apply hh_init with (l := []) (ip := ILinear) (u := false) (evs := evs_of (p_init (V := option xq) [] ILinear false)).
  - split; constructor.
  - unfold gb, st, evs_of. apply pair3. vm_compute. reflexivity.
  - intros _. exists (QcofZ 0), (QcofZ 1). split; [vm_compute; reflexivity|]. intros [|i] p E; discriminate.
Qed.
Lemma gap_untold : exists (ns : list (node xq)) (env : nat -> ncurve) i (s s' : npts) o D j q st' LB LE,
  proper ns /\ sources_ok ns env /\ nth_error ns i = Some NSource /\ env i = p_crv s /\ honest_history s /\
  run_op s o = (s', [EvBegin D; EvEnd D], Ok tt) /\
  net_update (network ns) (length ns) (fun _ => upd_init) i D = Ok (st', LB, LE) /\
  c_y (curve_of env ns j) (Fin q) = Ok None /\ c_y (curve_of (set_env env i (p_crv s')) ns j) (Fin q) = Ok (nv 5) /\ ~ told LE j q.
Proof.
  destruct (net_update (network gnet) (length gnet) (fun _ => upd_init) 1 (mkI (fz 9) (fz 9) false false)) as [[[st' LB] LE]|] eqn:E.
  2:{ vm_compute in E. discriminate. }
  exists gnet, genv, 1%nat, gb, gb', gop, (mkI (fz 9) (fz 9) false false), 4%nat, (QcofZ 5), st', LB, LE.
  split; [exact gnet_proper|]. split.
  { intros j _. unfold genv, set_env. destruct (j =? 1)%nat; [split; discriminate|]. destruct (j =? 0)%nat; [|split; discriminate].
    apply points_dom_ok, ex_u_honest. }
  split; [reflexivity|]. split; [reflexivity|]. split; [exact gb_honest|]. split.
  { unfold gb', st. apply pair3. vm_compute. reflexivity. }
  split; [exact E|]. split; [val|]. split; [val|].
  intros [en [D [I [En [_ [Hn M]]]]]].
  assert (F : forallb (fun en => match l_not en with Some D => negb (i_contains D (fz 5)) | None => true end) LE = true).
  { revert E. vm_compute. intros E. injection E as _ _ <-. vm_compute. reflexivity. }
  rewrite forallb_forall in F. specialize (F en I). rewrite Hn in F. apply negb_true_iff in F.
  assert (K : forallb (fun en => match l_not en with Some D => negb (n_isnan (i_start D)) && negb (n_isnan (i_end D)) | None => true end) LE = true).
  { revert E. vm_compute. intros E. injection E as _ _ <-. vm_compute. reflexivity. }
  rewrite forallb_forall in K. specialize (K en I). rewrite Hn in K. apply andb_true_iff in K. destruct K as [K1 K2].
  assert (O : iok D).
  { split; intros X; rewrite X in *; discriminate. }
  assert (C : i_contains D (fz 5) = true) by (apply contains_iff; [exact O|discriminate|exact M]). congruence.
Qed.

(** differential(): a Map that asks its source for the slope.  The slope at the
    last point changes when a point is appended, but the append announces only
    what comes after that point *)
Lemma differential_untold : exists (s s' : npts) o D q,
  honest_history s /\ run_op s o = (s', [EvBegin D; EvEnd D], Ok tt) /\ ~ imem D (Fin q) /\
  y_changes (differential true (p_crv s)) (differential true (p_crv s')) q.
Proof.
  exists ex_u, ex_u', lop, (mkI (fz 3) (fz 4) true false), (QcofZ 3). split; [exact ex_u_honest|]. split; [exact ex_u'_op|]. split.
  - intros [X _]. vm_compute in X. discriminate.
  - unfold y_changes.
    replace (c_y (differential true (p_crv ex_u)) (Fin (QcofZ 3))) with (@Ok (option xq) None) by (symmetry; val).
    replace (c_y (differential true (p_crv ex_u')) (Fin (QcofZ 3))) with (@Ok (option xq) (nv (-2))) by (symmetry; val). discriminate.
Qed.
Lemma constant_untold : exists dom a b q u', iok dom /\ i_is_empty dom = false /\ ~ imem dom (Fin q) /\
  constant_set dom upd_init (Fin a) (Fin b) = (u', Fin b, [EvBegin dom; EvEnd dom]) /\
  y_changes (constant_curve (Fin a) (Some dom)) (constant_curve (Fin b) (Some dom)) q.
Proof.
  destruct (constant_bounded (mkI (fz 0) (fz 1) false false) upd_init (QcofZ 1) (QcofZ 2) (QcofZ 5)) as [u' [E K]].
  - split; reflexivity.
  - split; discriminate.
  - vm_compute. reflexivity.
  - intros X. assert (Y : Qceqb (QcofZ 1) (QcofZ 2) = true) by (rewrite X; apply Qceqb_true; reflexivity). vm_compute in Y. discriminate.
  - intros [_ X]. vm_compute in X. discriminate.
  - exists (mkI (fz 0) (fz 1) false false), (QcofZ 1), (QcofZ 2), (QcofZ 5), u'. split; [split; discriminate|]. split; [vm_compute; reflexivity|].
    split; [|split; [exact E|exact K]]. intros [_ X]. vm_compute in X. discriminate.
Qed.
