(** Accumulating curves over any curve that shows a list of points: the
    invariant of ScanInv.v without the assumption that the source is itself a
    Points object. *)
From Coq Require Import List ZArith QArith Qcanon Bool Sorting.Sorted Lia Arith.
From Verif Require Import Base Num NumFacts Interval IntervalFacts Curve BaseFacts.
From Verif Require Import Points PointsSpec PointsIdx PointsQuery PointsDom PointsOps PointsMut PointsReset PointsReplace PointsCover PointsHist PointsDec.
From Verif Require Import Combine CombineFacts CombineTop Scan ScanFacts ScanSource ScanInv ScanTf SmaFacts SmaInv ScanTop.
Import ListNotations.

Lemma list_dom {V} {WV : Val xq V} (l : list (xq * V)) q : ascending l -> i_contains (pts_domain l) (Fin q) = true <-> span l q.
Proof.
  intros A. destruct l as [|a l'] eqn:E.
  - cbn. split; [discriminate|]. intros (b & c & vb & vc & [] & _).
  - rewrite <- E in *. destruct (last_opt_some l) as [z Z]; [now rewrite E|]. assert (HH : head_opt l = Some a) by now rewrite E.
    rewrite (ends_ok l a z A HH Z), (span_closed l q a z A HH Z).
    destruct (ascending_fin _ _ A (head_opt_in _ _ HH)) as (qa & va & ->).
    destruct (ascending_fin _ _ A (last_opt_in _ _ Z)) as (qz & vz & ->). cbn [fst].
    rewrite contains_iff by (try (split; discriminate); discriminate). unfold imem, i_closed. cbn. reflexivity.
Qed.

Section View.
Context {V W : Type} {WV : Val xq V} {WW : Val xq W}.
Context (LW : lerp_total (V := W)).
Context (G : list (xq * V) -> xq * V -> W -> W).
Context (m : Qc) (Hm : (0 < m)%Qc) (ip : interp) (post : W -> W) (PN : post v_none = v_none).
Implicit Types l : list (xq * V).
Implicit Types a : acc xq W.
Notation own := (Some (Fin m)).

(** [c] shows the points [l]: its domain is theirs, it has their values, and
    steps from one to the next *)
Record view (c : crv xq V) l : Prop := {
  vw_asc : ascending l;
  vw_eq : equally_spaced l;
  vw_dom : c_dom c = pts_domain l;
  vw_serves : serves m c l
}.
Definition vupd l a : Prop := PointsOps.idle (a_upd a) /\
  (u_dom (a_upd a) = None \/ u_dom (a_upd a) = Some (pts_domain l)).
Definition vinv l a : Prop := vupd l a /\ exists k, state G ip l a k.

Lemma vdom_ok l a k : vupd l a -> state G ip l a k ->
  exists a', acc_dom (pts_domain l) a = (a', pts_domain l) /\ vupd l a' /\ state G ip l a' k.
Proof.
  intros [I D] St. unfold acc_dom. destruct D as [D|D]; rewrite D.
  - eexists. split; [reflexivity|]. split; [|destruct St; split; auto]. split; [exact I|right; reflexivity].
  - exists a. split; [reflexivity|]. split; [split; auto|exact St].
Qed.

Lemma vinit_ok c l a x k : view c l -> vupd l a -> state G ip l a k -> l <> [] ->
  exists a' p, init_scan c own a x = (a', Ok (Some (fst p))) /\ head_opt l = Some p /\ vupd l a' /\ state G ip l a' k.
Proof.
  intros VW U St NE. pose proof (vw_asc _ _ VW) as A.
  destruct (head_opt_some _ NE) as [p Hp]. destruct (last_opt_some _ NE) as [z Hz].
  destruct (vdom_ok l a k U St) as (a' & E & U' & St').
  exists a', p. split; [|auto]. unfold init_scan. rewrite (vw_dom _ _ VW).
  rewrite E. assert (NE' : i_is_empty (pts_domain l) = false).
  { destruct (i_is_empty (pts_domain l)) eqn:X; auto. apply pts_domain_empty_iff in X; auto. congruence. }
  rewrite NE'. pose proof (ends_ok _ _ _ A Hp Hz) as EO.
  destruct (ascending_fin _ p A (head_opt_in _ _ Hp)) as (q & v & EP).
  assert (SD : i_start (pts_domain l) = fst p) by (rewrite EO; reflexivity).
  assert (NI : i_is_negative_infinite (pts_domain l) = false) by (rewrite EO, EP; reflexivity).
  rewrite NI. cbn [orb]. rewrite SD.
  pose proof (sv_dom _ _ _ (vw_serves _ _ VW) p (head_opt_in _ _ Hp)) as X. rewrite (vw_dom _ _ VW) in X. rewrite X. reflexivity.
Qed.

Notation query fuel c t a x := (acc_y fuel c own t post a x).

Lemma vquery_out fuel c t l a x : view c l -> vinv l a -> i_contains (pts_domain l) x = false ->
  exists a', query fuel c t a x = (a', Ok v_none) /\ vinv l a'.
Proof.
  intros VW (U & k & St) E. destruct (vdom_ok l a k U St) as (a' & D & U' & St').
  exists a'. unfold acc_y. rewrite (vw_dom _ _ VW), E. cbn [negb]. rewrite D.
  rewrite E. split; [reflexivity|]. split; eauto.
Qed.

Theorem vquery_ok fuel c t l a q : view c l -> computes_on G ip t l -> vinv l a -> (length l < fuel)%nat ->
  exists a' v, query fuel c t a (Fin q) = (a', Ok (post v)) /\ value ip (spec G l) q v /\ vinv l a'.
Proof.
  intros VW CT HI Lf. pose proof (vw_asc _ _ VW) as A.
  destruct (i_contains (pts_domain l) (Fin q)) eqn:IC.
  - apply list_dom in IC as SP; auto. destruct HI as (U & k & St).
    unfold acc_y. rewrite (vw_dom _ _ VW), IC. cbn [negb].
    unfold scan, no_offset.
    assert (NR : (match a_start a, Some (Fin q) with
        | Some s0, Some x => if n_ltb x s0 then reset_scan a else (a, Ok tt)
        | Some _, None => (a, Err EType)
        | None, _ => (a, Ok tt)
        end) = (a, Ok tt)).
    { rewrite (st_start _ _ _ _ _ St). destruct (head_opt (firstn k l)) as [p|] eqn:Hp; [|reflexivity]. cbn [option_map].
      assert (Hp' : head_opt l = Some p) by (destruct k, l; try discriminate; exact Hp).
      destruct SP as (b & d & vb & vc & I1 & _ & L1 & _).
      pose proof (ascending_head_le _ _ _ A Hp' I1) as LE. cbn [fst] in LE.
      destruct (ascending_fin _ p A (head_opt_in _ _ Hp')) as (r & v & ->). cbn [fst] in *. apply le_x_fin in LE.
      destruct (n_ltb (Fin q) (Fin r)) eqn:X; [|reflexivity]. change (lt_x (Fin q) (Fin r)) in X. apply lt_x_fin in X.
      exfalso. qc_lra. }
    rewrite NR.
    destruct (loop_gen LW G m Hm ip c t l (fun u => PointsOps.idle u /\ (u_dom u = None \/ u_dom u = Some (pts_domain l)))
      (init_scan c own) (Some (Fin q)) q A (vw_eq _ _ VW) (vw_serves _ _ VW) CT SP fuel a k U St) as (a' & k' & E & U' & St' & R).
    { lia. }
    { intros ->. apply (vinit_ok c l a _ 0); auto. now apply span_nonempty with q. }
    rewrite E. destruct (p_y_value (a_pts a') q) as (v & Y & VV); [auto|apply St'|].
    rewrite Y. cbn [rbind]. exists a', v. split; [reflexivity|].
    split; [|split; eauto]. rewrite (co_interp _ _ _ _ _ (st_core _ _ _ _ _ St')) in VV. eapply reached_value; eauto.
  - destruct (vquery_out fuel c t l a (Fin q) VW HI IC) as (a' & E & I'). exists a', v_none. rewrite PN.
    split; [exact E|]. split; [|exact I']. apply value_none.
    + intros (b & d & vb & vc & I1 & I2 & L1 & L2).
      apply (in_map fst) in I1, I2. rewrite spec_xs in I1, I2. apply in_map_iff in I1, I2.
      destruct I1 as ([x1 w1] & E1 & I1), I2 as ([x2 w2] & E2 & I2). cbn [fst] in *. subst.
      assert (SP : span l q) by (exists b, d, w1, w2; auto). apply list_dom in SP; auto. congruence.
    + eapply ascending_xs; [symmetry; apply spec_xs|exact A].
Qed.

Notation sent := (map (fun e : ev xq => match e with EvBegin D => EvBegin (update_interval D) | EvEnd D => EvEnd (update_interval D) end)).
Theorem vevents_ok l l' a evs : ascending l -> ascending l' -> vinv l a -> announces evs l l' ->
  exists a', acc_events a evs = (a', sent evs, Ok tt) /\ vinv l' a'.
Proof.
  intros A A' (U & k & St) [[-> E]|(D & q & -> & KD & NE & S & K)].
  { exists a. split; [reflexivity|]. unfold vinv, vupd. rewrite E. split; [exact U|]. now exists k. }
  destruct (events_gen G ip l l' a k D q A A' St (proj1 U) S K) as (a' & E & I & N & St').
  exists a'. split; [exact E|]. split; [split; [exact I|now left]|exact St'].
Qed.

Lemma list_dom_fin l x : ascending l -> i_contains (pts_domain l) x = true -> exists q, x = Fin q.
Proof.
  intros A IC. destruct x as [q| | |]; [now exists q| | |]; exfalso.
  3: { unfold i_contains, i_contains_gen in IC. apply andb_prop in IC. destruct IC as [IC _].
       apply andb_prop in IC. destruct IC as [_ IC]. unfold above_start in IC.
       destruct (pts_domain l) as [b c [|] eo]; destruct b; discriminate. }
  all: apply contains_iff in IC; [|now apply iok_pts_domain|discriminate]; unfold pts_domain in IC;
    destruct (head_opt l) as [b|] eqn:B; [destruct (last_opt l) as [z|] eqn:Z|];
    destruct IC as [I1 I2]; cbn in I1, I2; try discriminate.
  - destruct (ascending_fin _ _ A (last_opt_in _ _ Z)) as (r1 & v & ->). discriminate.
  - destruct (ascending_fin _ _ A (head_opt_in _ _ B)) as (r1 & v & ->). discriminate.
Qed.

(** An accumulating curve created over a curve that shows points; then queries
    (each through a curve that shows the current points), reads of the cached
    domain and announced changes of the points, in any order. *)
Inductive follows : list (xq * V) -> acc xq W -> Prop :=
| fo_new l : ascending l -> follows l (acc_init ip true)
| fo_query c t fuel l a x a' r : follows l a -> view c l -> computes_on G ip t l -> (length l < fuel)%nat ->
    query fuel c t a x = (a', r) -> follows l a'
| fo_domain l a a' d : follows l a -> acc_dom (pts_domain l) a = (a', d) -> follows l a'
| fo_change l l' evs a a' out r : follows l a -> ascending l' -> announces evs l l' ->
    acc_events a evs = (a', out, r) -> follows l' a'.

Theorem follows_inv l a : follows l a -> ascending l /\ vinv l a.
Proof.
  induction 1 as [l A|c t fuel l a x a' r _ [A HI] VW CT L E|l a a' d _ [A HI] E|l l' evs a a' out r _ [A HI] A' AN E].
  - split; [exact A|]. destruct (acc_init_eq (W := W) ip) as (_ & E2 & E3 & E4 & E5).
    split; [split; [split; reflexivity|now left]|]. exists 0%nat. apply state0; auto.
  - split; [exact A|]. destruct (i_contains (pts_domain l) x) eqn:IC.
    + destruct (list_dom_fin l x A IC) as [q ->].
      destruct (vquery_ok fuel c t l a q VW CT HI L) as (a1 & v & E1 & _ & I1). rewrite E in E1. now injection E1 as -> _.
    + destruct (vquery_out fuel c t l a x VW HI IC) as (a1 & E1 & I1). rewrite E in E1. now injection E1 as -> _.
  - split; [exact A|]. destruct HI as (U & k & St). destruct (vdom_ok l a k U St) as (a1 & E1 & U1 & St1).
    rewrite E in E1. injection E1 as -> _. split; eauto.
  - split; [exact A'|]. destruct (vevents_ok l l' a evs A A' HI AN) as (a1 & E1 & I1).
    rewrite E in E1. now injection E1 as -> _ _.
Qed.

Theorem follows_value fuel c t l a q : follows l a -> view c l -> computes_on G ip t l -> (length l < fuel)%nat ->
  exists a' v, query fuel c t a (Fin q) = (a', Ok (post v)) /\ value ip (spec G l) q v.
Proof.
  intros H VW CT L. destruct (follows_inv l a H) as [_ HI].
  destruct (vquery_ok fuel c t l a q VW CT HI L) as (a' & v & E & VV & _). eauto.
Qed.
End View.

(** Numeric points: what the curve traces, as [watched_traces]. *)
Section Numeric.
Context (G : list (xq * num) -> xq * num -> num -> num) (m : Qc) (Hm : (0 < m)%Qc) (ip : interp) (post : num -> num).
Lemma follows_traces k0 fuel c t a d r : post None = None -> (forall y, post (Some (Fin y)) = Some (Fin (y + k0)%Qc)) ->
  follows G m ip post (dots d) a -> view m c (dots d) -> computes_on G ip t (dots d) -> spec G (dots d) = dots r -> (length d < fuel)%nat ->
  traces ip (table d (fun k => at_y r k + k0)%Qc) (fun x => snd (acc_y fuel c (Some (Fin m)) t post a x)).
Proof.
  intros P0 P1 H VW CT SP L.
  assert (XS : map fst (dots d) = map fst (dots r)) by (rewrite <- SP; symmetry; apply spec_xs).
  assert (LR : length r = length d).
  { apply (f_equal (@length _)) in XS. rewrite !map_length in XS. unfold dots in XS. rewrite !map_length in XS. auto. }
  assert (AX : forall k, (k < length d)%nat -> at_x r k = at_x d k).
  { intros k Lk. apply (f_equal (fun l => nth_error l k)) in XS. rewrite !nth_error_map, !dots_at in XS by lia. cbn in XS. congruence. }
  assert (ET : table d (fun k => at_y r k + k0)%Qc = table r (fun k => at_y r k + k0)%Qc).
  { apply list_nth. intros k. destruct (lt_dec k (length d)) as [C|C].
    - rewrite !table_nth by lia. now rewrite AX.
    - rewrite !(proj2 (nth_error_None _ _)); auto; rewrite table_len; lia. }
  rewrite ET. apply traces_of with (post := post); auto.
  - eapply ascending_xs; [exact XS|]. apply VW.
  - intros q. destruct (follows_value lerp_total_num G m Hm ip post P0 fuel c t (dots d) a q H VW CT) as (a' & v & E & VV).
    + rewrite dots_len. exact L.
    + exists v. rewrite E. split; [reflexivity|]. rewrite SP in VV. exact VV.
Qed.
End Numeric.
