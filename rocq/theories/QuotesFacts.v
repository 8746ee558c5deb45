(** Quotes: histories, what the curves over the candles evaluate to, and the
    accumulating curves over them. *)
From Coq Require Import List ZArith QArith Qcanon Bool Sorting.Sorted Lia Arith.
From Verif Require Import Base Num NumFacts Interval IntervalFacts Curve BaseFacts.
From Verif Require Import Points PointsSpec PointsIdx PointsQuery PointsDom PointsOps PointsMut PointsReset PointsReplace PointsCover PointsHist PointsTop PointsDec.
From Verif Require Import Combine CombineFacts CombineTop Scan ScanFacts ScanSource ScanInv ScanTf SmaFacts SmaInv ScanTop ScanView Quotes.
Import ListNotations.

Notation cnd := (option (candle xq)).
Implicit Types s : quotes xq.
Implicit Types D : duration xq.
Implicit Types l : list (xq * cnd).

(** ** Histories *)
(** the stored candles *)
Definition candles s : list (xq * cnd) := p_pts (q_pts s).

Section History.
Context {O : Type} (point : O -> res (xq * cnd)) (encoder : option (O -> res O)).
Inductive qop := QSet (l : list O) | QAppendList (l : list O) | QAppend (o : O).
Definition run_q s (o : qop) : quotes xq * list (ev xq) * res unit :=
  match o with
  | QSet l => q_set point encoder s l
  | QAppendList l => q_append_list point encoder s l
  | QAppend o => q_append point encoder s o
  end.
(** the points an operation reads from its argument; a single one is encoded twice *)
Definition reads (o : qop) : res (list (xq * cnd)) :=
  let enc := match encoder with Some f => f | None => fun o => Ok o end in
  match o with
  | QSet l | QAppendList l => rmapM (fun o => let! e := enc o in point e) l
  | QAppend o => let! o := enc o in let! o := enc o in let! p := point o in Ok [p]
  end.

(** Quotes created empty; then reads of the domain (by the Quotes or by its
    points), operations on candles in ascending order, which, where the points
    are to be uniform, are equally spaced; and refused operations. *)
Inductive quoted D : quotes xq -> Prop :=
| qh_new : quoted D (q_empty D)
| qh_domain s : quoted D s -> quoted D (q_touch s)
| qh_read s : quoted D s -> quoted D (qset_pts s (p_touch (q_pts s)))
| qh_op s o m s' evs : quoted D s -> reads o = Ok m -> ascending m -> run_q s o = (s', evs, Ok tt) ->
    (p_uniform (q_pts s') = true -> equally_spaced (candles s')) -> quoted D s'
| qh_refused s o s' e : quoted D s -> (forall m, reads o = Ok m -> ascending m) ->
    run_q s o = (s', [], Err e) -> quoted D s'.
End History.

(** ** Forwarding events *)
Lemma forward_notify u E : idle u -> iok E -> i_is_empty E = false ->
  forward u [EvBegin E; EvEnd E] = (mkU i_empty i_empty None, [EvBegin E; EvEnd E]).
Proof.
  intros I K N. cbn [forward]. rewrite (begin_idle u E I K N). rewrite (end_begun E (u_dom u) K N). reflexivity.
Qed.

Lemma from_points_ok s p' evs l' : idle (q_upd s) -> announces evs (candles s) l' -> p_pts p' = l' ->
  exists u', from_points s (p', evs, Ok tt) = (mkQt p' u', evs, Ok tt) /\ idle u' /\
    (u_dom u' = None \/ (l' = candles s /\ u' = q_upd s)).
Proof.
  intros I [[-> E]|(E & q & -> & K & NE & _)] P; unfold from_points.
  - exists (q_upd s). split; [reflexivity|]. split; [exact I|]. right. auto.
  - rewrite (forward_notify _ _ I K NE). eexists. split; [reflexivity|]. split; [split; reflexivity|]. now left.
Qed.

(** ** The invariant *)
Record qinv D s : Prop := {
  qi_hist : honest_history (q_pts s);
  qi_interp : p_interp (q_pts s) = IPrevious;
  qi_force : p_force (q_pts s) = d_uniform D;
  qi_idle : idle (q_upd s);
  qi_dom : u_dom (q_upd s) = None \/ u_dom (q_upd s) = Some (pts_domain (candles s))
}.
Lemma qi_good D s : qinv D s -> good (q_pts s).
Proof. intros H. apply honest_history_good, H. Qed.
Lemma qi_pdom D s : qinv D s -> p_dom (q_pts s) = pts_domain (candles s).
Proof. intros H. apply calm_dom. now apply good_calm, qi_good with D. Qed.
Lemma qi_domain D s : qinv D s -> q_domain s = pts_domain (candles s).
Proof.
  intros H. unfold q_domain. destruct (qi_dom _ _ H) as [E|E]; rewrite E; [now apply qi_pdom with D|reflexivity].
Qed.

Lemma qinv_empty D : qinv D (q_empty D).
Proof.
  split.
  - unfold q_empty. cbn [q_pts].
    assert (E : p_init ([] : list (xq * cnd)) IPrevious (d_uniform D) = (fst (fst (p_init [] IPrevious (d_uniform D))), [], Ok tt)).
    { unfold p_init, p_set, p_empty. cbn. destruct (d_uniform D); reflexivity. }
    eapply hh_init; [apply ascending_nil|exact E|]. intros _.
    exists 0%Qc, 1%Qc. split; [reflexivity|].
    assert (P : p_pts (fst (fst (p_init ([] : list (xq * cnd)) IPrevious (d_uniform D)))) = []) by (cbn; destruct (d_uniform D); reflexivity).
    rewrite P. intros [|i] p; discriminate.
  - cbn. destruct (d_uniform D); reflexivity.
  - cbn. destruct (d_uniform D); reflexivity.
  - split; reflexivity.
  - now left.
Qed.
Lemma qinv_read D s : qinv D s -> qinv D (qset_pts s (p_touch (q_pts s))).
Proof. intros [H1 H2 H3 H4 H5]. split; auto. now apply hh_read. Qed.
Lemma qinv_touch D s : qinv D s -> qinv D (q_touch s).
Proof.
  intros H. unfold q_touch. pose proof (qi_pdom _ _ H) as P. destruct (u_dom (q_upd s)) eqn:E; [exact H|].
  destruct H as [H1 H2 H3 H4 H5]. split; auto.
  - now apply hh_read.
  - right. cbn. now rewrite P.
Qed.
Lemma candles_touch s : candles (q_touch s) = candles s.
Proof. unfold q_touch. now destruct (u_dom (q_upd s)). Qed.

(** an operation of the points *)
Lemma qinv_op D s o p' evs : qinv D s -> op_ok o -> run_op (q_pts s) o = (p', evs, Ok tt) ->
  (p_uniform p' = true -> equally_spaced (p_pts p')) ->
  exists s', from_points s (p', evs, Ok tt) = (s', evs, Ok tt) /\ q_pts s' = p' /\ qinv D s' /\ announces evs (candles s) (candles s').
Proof.
  intros H OK E EQ. pose proof (qi_good _ _ H) as G.
  pose proof (op_announces _ _ _ _ G OK E) as AN.
  destruct (from_points_ok s p' evs (p_pts p') (qi_idle _ _ H) AN eq_refl) as (u' & F & I & U).
  exists (mkQt p' u'). split; [exact F|]. split; [reflexivity|]. split; [|exact AN].
  destruct (step_force _ _ _ _ G OK E) as [SF SI].
  split; cbn [q_pts q_upd]; auto.
  - eapply hh_op; eauto. apply (qi_hist _ _ H).
  - rewrite SI. apply (qi_interp _ _ H).
  - rewrite SF. apply (qi_force _ _ H).
  - destruct U as [U|[E1 ->]]; [now left|]. destruct (qi_dom _ _ H) as [X|X]; [now left|right]. rewrite X. unfold candles at 2. cbn. now rewrite E1.
Qed.
Lemma qinv_refused D s o p' e : qinv D s -> op_ok o -> run_op (q_pts s) o = (p', [], Err e) ->
  exists s', from_points s (p', [], Err e) = (s', [], Err e) /\ qinv D s' /\ candles s' = candles s.
Proof.
  intros H OK E. pose proof (qi_good _ _ H) as G. unfold from_points, forward. eexists. split; [reflexivity|].
  assert (P : p_pts p' = candles s /\ p_interp p' = p_interp (q_pts s) /\ p_force p' = p_force (q_pts s)).
  { destruct (refused_same _ _ _ _ G OK E) as [->| ->]; auto. }
  destruct P as (P & P1 & P2). split; [|exact P]. split; cbn [q_pts q_upd].
  - eapply hh_refused; eauto. apply (qi_hist _ _ H).
  - rewrite P1. apply (qi_interp _ _ H).
  - rewrite P2. apply (qi_force _ _ H).
  - apply (qi_idle _ _ H).
  - destruct (qi_dom _ _ H) as [X|X]; [now left|right]. rewrite X. unfold candles at 2. cbn. now rewrite P.
Qed.

Section Operations.
Context {O : Type} (point : O -> res (xq * cnd)) (encoder : option (O -> res O)).

Lemma rmapM_bind {A B C} (f : A -> res B) (g : B -> res C) (lo : list A) m :
  rmapM (fun a => let! b := f a in g b) lo = Ok m <-> (let! k := rmapM f lo in rmapM g k) = Ok m.
Proof.
  revert m. induction lo as [|a lo IH]; intros m; cbn [rmapM rbind]; [reflexivity|].
  destruct (f a) as [b|e]; cbn [rbind]; [|split; discriminate].
  destruct (rmapM f lo) as [k|e] eqn:F; cbn [rbind] in *.
  - cbn [rmapM]. destruct (g b) as [c|e]; cbn [rbind]; [|split; discriminate].
    destruct (rmapM (fun a => let! b := f a in g b) lo) as [n|e] eqn:R.
    + rewrite (proj1 (IH n) eq_refl). cbn [rbind]. reflexivity.
    + destruct (rmapM g k) as [n|e'] eqn:R2; cbn [rbind]; [|split; discriminate].
      discriminate (proj2 (IH n) eq_refl).
  - destruct (g b) as [c|e']; cbn [rbind]; [|split; discriminate].
    destruct (rmapM (fun a => let! b := f a in g b) lo) as [n|e'] eqn:R; cbn [rbind]; [|split; discriminate].
    discriminate (proj1 (IH n) eq_refl).
Qed.
Lemma rmapM_ok {A} (lo : list A) : rmapM (fun o => Ok o) lo = Ok lo.
Proof. induction lo as [|a lo IH]; cbn; [reflexivity|]. now rewrite IH. Qed.
Lemma reads_list lo m : rmapM (fun o => let! e := (match encoder with Some f => f | None => fun o => Ok o end) o in point e) lo = Ok m <->
  (let! lo := encode_many encoder lo in rmapM point lo) = Ok m.
Proof.
  unfold encode_many. destruct encoder as [f|].
  - apply rmapM_bind.
  - cbn [rbind]. reflexivity.
Qed.
Lemma reads_fail lo e : (let! lo := encode_many encoder lo in rmapM point lo) = Err e ->
  forall m, rmapM (fun o => let! e := (match encoder with Some f => f | None => fun o => Ok o end) o in point e) lo <> Ok m.
Proof. intros E m H. apply reads_list in H. congruence. Qed.

(** each operation is one of the points', after a possible read of the domain *)
Definition p_op (o : @qop O) (m : list (xq * cnd)) : op cnd :=
  match o with QSet _ => OSet m | _ => OAppendList m end.
Definition q_pre (o : @qop O) s : quotes xq := match o with QSet _ => s | _ => q_touch s end.

Lemma set_run s lo m : (let! lo := encode_many encoder lo in rmapM point lo) = Ok m ->
  q_set point encoder s lo = from_points s (p_set (q_pts s) m None).
Proof. intros E. unfold q_set. now rewrite E. Qed.
Lemma append_run D s lo m : qinv D s -> (let! lo := encode_many encoder lo in rmapM point lo) = Ok m ->
  q_append_list point encoder s lo = from_points (q_touch s) (p_append_list (q_pts (q_touch s)) m).
Proof.
  intros H E. unfold q_append_list. cbv zeta.
  pose proof (qinv_touch _ _ H) as HT. rewrite (qi_domain _ _ HT).
  destruct (i_is_empty (pts_domain (candles (q_touch s)))) eqn:X.
  - rewrite (set_run _ _ _ E). apply pts_domain_empty_iff in X; [|apply (qi_good _ _ HT)].
    unfold p_append_list. unfold candles in X. rewrite X. reflexivity.
  - now rewrite E.
Qed.
Lemma append_one s o : q_append point encoder s o =
  match encode_one encoder o with Ok o => q_append_list point encoder s [o] | Err e => (s, [], Err e) end.
Proof. reflexivity. Qed.
Lemma reads_one o m : reads point encoder (QAppend o) = Ok m ->
  exists o', encode_one encoder o = Ok o' /\ (let! lo := encode_many encoder [o'] in rmapM point lo) = Ok m.
Proof.
  unfold reads, encode_one, encode_many. destruct encoder as [f|]; cbn [rbind].
  - destruct (f o) as [o'|]; [|discriminate]. cbn [rbind rmapM]. intros H. exists o'. split; [reflexivity|].
    destruct (f o') as [o2|]; [|discriminate]. cbn [rbind] in *. cbn [rmapM rbind]. destruct (point o2); [|discriminate]. exact H.
  - intros H. exists o. split; [reflexivity|]. cbn [rmapM rbind]. destruct (point o); [|discriminate]. exact H.
Qed.

Lemma run_q_points D s o m : qinv D s -> reads point encoder o = Ok m ->
  run_q point encoder s o = from_points (q_pre o s) (run_op (q_pts (q_pre o s)) (p_op o m)).
Proof.
  intros H R. destruct o as [lo|lo|o]; cbn [run_q q_pre p_op run_op].
  - apply set_run. now apply reads_list.
  - apply append_run with D; auto. now apply reads_list.
  - destruct (reads_one _ _ R) as (o' & E1 & E2). rewrite append_one, E1. now apply append_run with D.
Qed.
Lemma qinv_pre D o s : qinv D s -> qinv D (q_pre o s).
Proof. intros H. destruct o; cbn; auto using qinv_touch. Qed.
Lemma candles_pre o s : candles (q_pre o s) = candles s.
Proof. destruct o; cbn; auto using candles_touch. Qed.

Lemma from_points_result s o s' evs r : from_points s o = (s', evs, r) -> exists p' e', o = (p', e', r) /\ q_pts s' = p' /\ forward (q_upd s) e' = (q_upd s', evs).
Proof.
  unfold from_points. destruct o as [[p' e'] r']. destruct (forward (q_upd s) e') as [u es] eqn:F. intros [= <- <- <-].
  exists p', e'. auto.
Qed.

(** what an accepted operation does *)
Lemma run_q_ok D s o m s' evs : qinv D s -> reads point encoder o = Ok m -> ascending m ->
  run_q point encoder s o = (s', evs, Ok tt) -> (p_uniform (q_pts s') = true -> equally_spaced (candles s')) ->
  qinv D s' /\ announces evs (candles s) (candles s') /\
  candles s' = match o with QSet _ => m | _ => candles s ++ m end.
Proof.
  intros H R A E EQ. rewrite (run_q_points D s o m H R) in E.
  destruct (from_points_result _ _ _ _ _ E) as (p' & e' & EP & QP & F).
  pose proof (qinv_pre D o s H) as HP.
  assert (OK : op_ok (p_op o m)) by (destruct o; exact A).
  destruct (qinv_op D (q_pre o s) (p_op o m) p' e' HP OK EP) as (s2 & F2 & QP2 & HI & AN).
  { rewrite <- QP. exact EQ. }
  rewrite EP in E. rewrite F2 in E. injection E as <- <-. rewrite candles_pre in AN. split; [exact HI|]. split; [exact AN|].
  pose proof (qi_good _ _ HP) as G. pose proof (proj1 (proj1 (good_calm _) G)) as C.
  assert (AP : forall (X : p_append_list (q_pts (q_pre o s)) m = (p', e', Ok tt)), candles s2 = candles s ++ m).
  { intros X. destruct (top_append _ _ _ _ _ (qi_hist _ _ HP) A X) as [(_ & P & _)|[W _]]; [|discriminate].
    unfold candles. rewrite QP2, P. f_equal. apply candles_pre. }
  destruct o as [lo|lo|o0]; cbn [p_op run_op] in EP; auto.
  destruct (p_set_ok _ _ None _ _ C A ltac:(discriminate) EP) as (S & _). unfold candles. rewrite QP2. apply (so_pts _ _ _ _ _ S).
Qed.
Lemma run_q_refused D s o s' e : qinv D s -> (forall m, reads point encoder o = Ok m -> ascending m) ->
  run_q point encoder s o = (s', [], Err e) -> qinv D s' /\ candles s' = candles s.
Proof.
  intros H A E. destruct (reads point encoder o) as [m|er] eqn:R.
  - rewrite (run_q_points D s o m H R) in E.
    destruct (from_points_result _ _ _ _ _ E) as (p' & e' & EP & QP & F).
    assert (e' = []) as ->.
    { pose proof (qinv_pre D o s H) as HP.
      assert (X : e' = [] \/ exists E0 r, e' = EvBegin E0 :: r /\ iok E0 /\ i_is_empty E0 = false).
      { pose proof (qi_good _ _ HP) as G. pose proof (proj1 (proj1 (good_calm _) G)) as C. specialize (A m eq_refl).
        assert (SC : forall p2 e2 r2, p_set (q_pts (q_pre o s)) m None = (p2, e2, r2) -> e2 = [] \/ exists E0 r, e2 = EvBegin E0 :: r /\ iok E0 /\ i_is_empty E0 = false).
        { intros p2 e2 r2 X. pose proof (iok_set_domain (q_pts (q_pre o s)) m None C A ltac:(discriminate)) as K.
          destruct (p_set_cases (q_pts (q_pre o s)) m None C A ltac:(discriminate)) as (b & _ & CS).
          destruct (p_force (q_pts (q_pre o s)) && negb b).
          - destruct CS as (s2 & X2 & _). rewrite X in X2. apply (f_equal (fun o => snd (fst o))) in X2; cbn [fst snd] in X2; subst e2.
            unfold begun. destruct (i_is_empty (set_domain (q_pts (q_pre o s)) m None)) eqn:N; [now left|right; eauto].
          - destruct CS as (s2 & X2 & _). rewrite X in X2. apply (f_equal (fun o => snd (fst o))) in X2; cbn [fst snd] in X2; subst e2.
            unfold notify. destruct (i_is_empty (set_domain (q_pts (q_pre o s)) m None)) eqn:N; [now left|right; eauto]. }
        assert (AC : forall p2 e2 r2, p_append_list (q_pts (q_pre o s)) m = (p2, e2, r2) -> e2 = [] \/ exists E0 r, e2 = EvBegin E0 :: r /\ iok E0 /\ i_is_empty E0 = false).
        { intros p2 e2 r2 X. destruct (p_pts (q_pts (q_pre o s))) eqn:P.
          { unfold p_append_list in X. rewrite P in X. eapply SC; eauto. }
          destruct m as [|m0 m'].
          { unfold p_append_list in X. rewrite P in X. cbn in X. injection X as _ <- _. now left. }
          destruct (p_append_list_cases (q_pts (q_pre o s)) (m0 :: m') C ltac:(congruence) ltac:(discriminate) A) as [(a & z & _ & _ & _ & X2)|(_ & b & _ & K & NE & CS)].
          - rewrite X in X2. apply (f_equal (fun o => snd (fst o))) in X2; cbn [fst snd] in X2; subst e2. now left.
          - destruct (p_force (q_pts (q_pre o s)) && negb b).
            + destruct CS as (s2 & X2 & _). rewrite X in X2. apply (f_equal (fun o => snd (fst o))) in X2; cbn [fst snd] in X2; subst e2. right. eauto.
            + destruct CS as (s2 & X2 & _). rewrite X in X2. apply (f_equal (fun o => snd (fst o))) in X2; cbn [fst snd] in X2; subst e2. unfold notify. rewrite NE. right. eauto. }
        destruct o; cbn [p_op run_op] in EP; eauto. }
      destruct X as [X|(E0 & r & -> & K & NE)]; [exact X|]. exfalso. cbn [forward] in F.
      rewrite (begin_idle _ E0 (qi_idle _ _ HP) K NE) in F. destruct (forward _ r) in F. discriminate. }
    assert (OK : op_ok (p_op o m)) by (destruct o; apply A; reflexivity).
    destruct (qinv_refused D (q_pre o s) (p_op o m) p' e (qinv_pre D o s H) OK EP) as (s2 & F2 & HI & CC).
    rewrite EP in E. rewrite F2 in E. injection E as <-. split; [exact HI|]. now rewrite CC, candles_pre.
  - clear A. assert (X : s' = s \/ s' = q_touch s).
    { destruct o as [lo|lo|o]; cbn [run_q] in E.
      - unfold q_set in E. destruct (let! lo := encode_many encoder lo in rmapM point lo) as [m|e2] eqn:X.
        + apply reads_list in X. cbn [reads] in R. congruence.
        + injection E as -> _. now left.
      - unfold q_append_list, q_set in E. cbv zeta in E. destruct (let! lo := encode_many encoder lo in rmapM point lo) as [m|e2] eqn:X.
        + apply reads_list in X. cbn [reads] in R. congruence.
        + destruct (i_is_empty _); injection E as <- _; now right.
      - unfold q_append in E. destruct (encode_one encoder o) as [o'|e1] eqn:E1; [|injection E as <- _; now left].
        unfold q_append_list, q_set in E. cbv zeta in E. destruct (let! lo := encode_many encoder [o'] in rmapM point lo) as [m|e2] eqn:X.
        + exfalso. unfold reads, encode_one, encode_many in *. destruct encoder as [f|].
          * rewrite E1 in R. cbn [rbind rmapM] in R, X. destruct (f o') as [o2|]; [|discriminate]. cbn [rbind rmapM] in R, X.
            destruct (point o2); discriminate.
          * injection E1 as ->. cbn [rbind rmapM] in R, X. destruct (point o'); discriminate.
        + destruct (i_is_empty _); injection E as <- _; now right. }
    destruct X as [->| ->]; auto using qinv_touch, candles_touch.
Qed.
End Operations.

Theorem quoted_inv {O} (point : O -> res (xq * cnd)) encoder D s : quoted point encoder D s -> qinv D s.
Proof.
  induction 1 as [|s _ IH|s _ IH|s o m s' evs _ IH R A E EQ|s o s' e _ IH A E].
  - apply qinv_empty.
  - now apply qinv_touch.
  - now apply qinv_read.
  - eapply run_q_ok; eauto.
  - eapply run_q_refused; eauto.
Qed.
