(** Invariants of a Trend over any sequence of scanned points and begun
    updates, for every number type. *)
From Coq Require Import List ZArith Bool Lia.
From Verif Require Import Base Num Interval Points PointsOps Trend TrendPred TrendLineInv.
Import ListNotations.
Open Scope num_scope.
Open Scope bool_scope.

Section TrendTop.
Context {T : Type} {N : Num T}.
Variables (eps gold gold2 : T) (polyfit : list (pt T) -> T * T) (g : cfg T) (fuel : nat).
Notation pt := (pt T).
Notation tl := (tl T).

(** What happens to a trend: a value is scanned, or an update begins. *)
Inductive tev := TScan (x : T) (y : option T) | TBegin (d : ival T).
Definition tstep (r : trend T) (e : tev) : res (trend T) :=
  match e with
  | TScan x y => trend_scan eps gold gold2 polyfit g fuel r x y
  | TBegin d => trend_begin eps gold gold2 polyfit g r d
  end.
Fixpoint trun (r : trend T) (es : list tev) : res (trend T) :=
  match es with [] => Ok r | e :: es => let! r := tstep r e in trun r es end.
Definition scanned (es : list tev) : list pt :=
  flat_map (fun e => match e with TScan x (Some y) => [(x, y)] | _ => [] end) es.

Tactic Notation "step" hyp(R) simple_intropattern(q) ident(E) :=
  match type of R with rbind ?X _ = _ => destruct X as q eqn:E; [ | discriminate R ]; cbn [rbind] in R end.

Variable P : pt -> Prop.
Section Side.
Variable cg : cfg T.
Notation inv := (linv eps gold gold2 polyfit cg P P).
Definition linvs (ls : levels T) : Prop := Forall (Forall inv) ls.

Lemma forall_set {A} (Q : A -> Prop) (l : list A) i x : Forall Q l -> Q x -> Forall Q (list_set l i x).
Proof.
  revert i. induction l as [|a l IH]; intros i H K; destruct i; cbn; auto; inversion H; subst; constructor; auto.
Qed.
Lemma forall_nth {A} (Q : A -> Prop) (l : list A) i x : Forall Q l -> nth_error l i = Some x -> Q x.
Proof. intros H E. rewrite Forall_forall in H. apply H. eapply nth_error_In; eauto. Qed.

Lemma put_line_inv ls lv i t : linvs ls -> inv t -> linvs (put_line ls lv i t).
Proof.
  intros H K. unfold put_line. destruct (nth_error ls lv) as [ lines | ] eqn:E; [ | exact H ].
  apply forall_set; [ exact H | ]. apply forall_set; [ exact (forall_nth _ _ _ _ H E) | exact K ].
Qed.
Lemma head_forall (Q : pt -> Prop) l a : Forall Q l -> head_opt l = Some a -> Q a.
Proof. destruct l; [ discriminate | ]. intros H [= <-]. now apply Forall_inv in H. Qed.
Lemma last_forall (Q : pt -> Prop) l a : Forall Q l -> last_opt l = Some a -> Q a.
Proof.
  intros H E. apply last_opt_in in E. rewrite Forall_forall in H. now apply H.
Qed.

Lemma append_loop_inv n : forall i lv ls p under rm np ls' rm' np', linvs ls -> P p -> Forall P under -> Forall P np ->
  append_loop eps gold gold2 polyfit cg n i lv ls p under rm np = Ok (ls', rm', np') -> linvs ls' /\ Forall P np' /\ length ls' = length ls.
Proof.
  induction n as [|n IH]; intros i lv ls p under rm np ls' rm' np' H Hp Hu Hn R; cbn [append_loop] in R; [ injection R as <- <- <-; auto | ].
  destruct (nth_error ls lv) as [ lines | ] eqn:El; [ | discriminate ]. destruct (nth_error lines i) as [ t0 | ] eqn:Et; [ | discriminate ].
  pose proof (forall_nth _ _ _ _ (forall_nth _ _ _ _ H El) Et) as I0. cbv beta in I0.
  step R [ [t ch] | ] Ea. pose proof (did_append_inv eps gold gold2 polyfit cg P P t0 p under t ch I0 Hp Hu Ea) as I1.
  pose proof (put_line_inv ls lv i t H I1) as H1. set (ls1 := put_line ls lv i t) in *.
  assert (Len : length ls1 = length ls).
  { unfold ls1, put_line. rewrite El. generalize (list_set lines i t). clear. revert lv.
    induction ls as [|a ls IH]; intros [|lv] x; cbn; auto. }
  clearbody ls1.
  assert (G : forall np1 rm1, Forall P np1 -> append_loop eps gold gold2 polyfit cg n (S i) lv ls1 p under rm1 np1 = Ok (ls', rm', np') ->
    linvs ls' /\ Forall P np' /\ length ls' = length ls).
  { intros np1 rm1 Hn1 R1. apply IH in R1; auto. destruct R1 as (A & B & C). split; [ exact A | split; [ exact B | congruence ] ]. }
  destruct (negb ch); [ now apply G in R | ].
  destruct (is_valid cg t).
  - destruct (negb (is_valid cg t0)); [ | now apply G in R ].
    step R [ c | ] Ec. destruct c; [ now apply G in R | ].
    destruct (head_opt (t_pts t)) as [ a | ] eqn:Eh; [ | discriminate ]. destruct (last_opt (t_pts t)) as [ z | ] eqn:Ez; [ | discriminate ].
    destruct I1 as [ ((Dp & _) & _) _ ].
    step R [ np1 | ] E1. step R [ np2 | ] E2. apply G in R; auto.
    eapply insort_draws; [ | | exact E2 ]; [ | eapply last_forall; eauto ].
    eapply insort_draws; [ exact Hn | | exact E1 ]. eapply head_forall; eauto.
  - destruct (is_ready t && _); [ | now apply G in R ]. step R [ c | ] Ec. now apply G in R.
Qed.
Lemma try_fork_inv lines p under lines' : Forall inv lines -> P p -> Forall P under ->
  try_fork eps gold gold2 polyfit cg lines p under = Ok lines' -> Forall inv lines'.
Proof.
  intros H Hp Hu R. unfold try_fork in R. step R [ f | ] Ef. destruct f; [ | now injection R as <- ].
  step R [ [t b] | ] Ea. injection R as <-. apply Forall_app. split; [ exact H | ]. constructor; [ | constructor ].
  exact (did_append_inv eps gold gold2 polyfit cg P P tl0 p under t b (linv0 _ _ _ _ _ _ _) Hp Hu Ea).
Qed.
Lemma dels_inv rm : forall lines : list tl, Forall inv lines -> Forall inv (fold_left (fun l i => del l i) rm lines).
Proof. induction rm as [|i rm IH]; intros lines H; [ exact H | ]. cbn. apply IH. now apply forall_del. Qed.
Lemma list_set_length {A} (l : list A) i x : length (list_set l i x) = length l.
Proof. revert i. induction l as [|a l IH]; intros [|i]; cbn; auto. Qed.
Lemma append_validate_inv p lv ls under ls' np : linvs ls -> P p -> Forall P under ->
  append_validate eps gold gold2 polyfit cg p lv ls under = Ok (ls', np) -> linvs ls' /\ Forall P np /\ length ls' = length ls.
Proof.
  intros H Hp Hu R. unfold append_validate in R. destruct (nth_error ls lv) as [ lines | ]; [ | discriminate ].
  step R [ [[ls1 rm] np1] | ] E1. apply append_loop_inv in E1; auto. destruct E1 as (H1 & Hn & L1).
  destruct (nth_error ls1 lv) as [ lines1 | ] eqn:El; [ | discriminate ]. step R [ lines2 | ] E2. injection R as <- <-.
  split; [ | split; [ exact Hn | now rewrite list_set_length ] ]. apply forall_set; [ exact H1 | ].
  eapply try_fork_inv; [ | exact Hp | exact Hu | exact E2 ]. apply dels_inv. exact (forall_nth _ _ _ _ H1 El).
Qed.
Lemma begin_lines_inv d under : Forall P under -> forall lines lines', Forall inv lines ->
  begin_lines eps gold gold2 polyfit cg lines d under = Ok lines' -> Forall inv lines'.
Proof.
  intro Hu. induction lines as [|t lines IH]; intros lines' H R; cbn [begin_lines] in R; [ now injection R as <- | ].
  inversion H; subst. step R [ r | ] E1. step R [ t1 | ] E2.
  assert (I1 : inv t1) by (eapply tl_begin_inv; eauto). injection R as <-. destruct (t_pts t1); [ eauto | constructor; eauto ].
Qed.
Lemma begin_levels_inv d under : Forall P under -> forall ls first ls', linvs ls ->
  begin_levels eps gold gold2 polyfit cg first ls d under = Ok ls' -> linvs ls'.
Proof.
  intro Hu. induction ls as [|lines ls IH]; intros first ls' H R; cbn [begin_levels] in R; [ now injection R as <- | ].
  inversion H; subst. step R [ r | ] E1. step R [ l1 | ] E2.
  assert (I1 : Forall inv l1) by (eapply begin_lines_inv; eauto). assert (I2 : linvs r) by (eapply IH; eauto).
  injection R as <-. destruct l1; [ destruct first; [ constructor; auto | exact I2 ] | constructor; auto ].
Qed.
End Side.

Lemma insorts_draws ps : forall a a' : list pt, Forall P a -> Forall P ps -> insorts a ps = Ok a' -> Forall P a'.
Proof.
  induction ps as [|p ps IH]; intros a a' A B R; cbn [insorts] in R; [ now injection R as <- | ]. inversion B; subst.
  step R [ a1 | ] E1. eapply IH; [ | | exact R ]; auto. eapply insort_draws; [ exact A | | exact E1 ]. assumption.
Qed.
Notation up_inv := (linvs (line_cfg g true)).
Notation lo_inv := (linvs (line_cfg g false)).
Definition trinv (r : trend T) : Prop := Forall P (r_pts r) /\ up_inv (r_up r) /\ lo_inv (r_lo r).

Lemma level_points_inv under lv : Forall P under -> forall ps up lo acc up' lo' acc', up_inv up -> lo_inv lo -> Forall P ps -> Forall P acc ->
  level_points eps gold gold2 polyfit g ps lv up lo under acc = Ok (up', lo', acc') ->
  up_inv up' /\ lo_inv lo' /\ Forall P acc' /\ length up' = length up /\ length lo' = length lo.
Proof.
  intro Hu. induction ps as [|p ps IH]; intros up lo acc up' lo' acc' A B C D R; cbn [level_points] in R.
  { injection R as <- <- <-. auto. }
  inversion C as [ | ? ? Cp Cps ]; subst.
  step R [ [up1 np1] | ] E1. apply append_validate_inv in E1; auto. destruct E1 as (A1 & N1 & L1).
  step R [ acc1 | ] E2. apply insorts_draws in E2; auto.
  step R [ [lo1 np2] | ] E3. apply append_validate_inv in E3; auto. destruct E3 as (B1 & N2 & L2).
  step R [ acc2 | ] E4. apply insorts_draws in E4; auto.
  apply IH in R; auto. rewrite L1, L2 in R. exact R.
Qed.
Lemma scan_levels_inv under : Forall P under -> forall f lv ps up lo up' lo', up_inv up -> lo_inv lo -> Forall P ps ->
  scan_levels eps gold gold2 polyfit g f lv ps up lo under = Ok (up', lo') ->
  up_inv up' /\ lo_inv lo' /\ (length up = length lo -> length up' = length lo').
Proof.
  intro Hu. induction f as [|f IH]; intros lv ps up lo up' lo' A B C R; [ discriminate | ]. cbn [scan_levels] in R.
  destruct (negb (lv <? length up)%nat); [ injection R as <- <-; auto | ].
  step R [ [[up1 lo1] acc] | ] E1. apply level_points_inv in E1; auto. destruct E1 as (A1 & B1 & C1 & L1 & L2).
  destruct acc as [|a acc]; [ injection R as <- <-; split; [ exact A1 | split; [ exact B1 | congruence ] ] | ].
  destruct (length up1 =? S lv)%nat.
  - apply IH in R; auto; [ | apply Forall_app; split; [ exact A1 | repeat constructor ] | apply Forall_app; split; [ exact B1 | repeat constructor ] ].
    destruct R as (A2 & B2 & L3). split; [ exact A2 | split; [ exact B2 | ] ]. intro E. apply L3. rewrite !app_length. cbn. lia.
  - apply IH in R; auto. destruct R as (A2 & B2 & L3). split; [ exact A2 | split; [ exact B2 | ] ]. intro E. apply L3. lia.
Qed.
Lemma tstep_inv r e r' : trinv r -> Forall P (scanned [e]) -> tstep r e = Ok r' -> trinv r'.
Proof.
  intros (A & B & C) H R. destruct e as [ x [ y | ] | d ]; cbn [tstep] in R.
  - unfold trend_scan in R. cbn in H. apply Forall_inv in H.
    assert (A1 : Forall P (r_pts r ++ [(x, y)])) by (apply Forall_app; auto).
    step R [ [up lo] | ] E1. apply scan_levels_inv in E1; auto. injection R as <-. destruct E1 as (B1 & C1 & _). split; auto.
  - injection R as <-. split; auto.
  - unfold trend_begin in R. apply (stale_draws P d) in A. step R [ up | ] E1. step R [ lo | ] E2. injection R as <-.
    split; [ exact A | ]. split; eapply begin_levels_inv; [ exact A | exact B | exact E1 | exact A | exact C | exact E2 ].
Qed.
Lemma trun_inv es : forall r r', trinv r -> Forall P (scanned es) -> trun r es = Ok r' -> trinv r'.
Proof.
  induction es as [|e es IH]; intros r r' I H R; [ now injection R as <- | ]. cbn [trun] in R. step R [ r1 | ] E1.
  change (e :: es) with ([e] ++ es) in H. unfold scanned in H. rewrite flat_map_app in H. apply Forall_app in H. destruct H as [ H1 H2 ].
  eapply IH; [ | exact H2 | exact R ]. eapply tstep_inv; eauto.
Qed.
Lemma trinv0 : trinv trend0.
Proof. split; [ constructor | ]. split; repeat constructor. Qed.
End TrendTop.

Section Out.
Context {T : Type} {N : Num T}.
Variables (eps gold gold2 : T) (polyfit : list (pt T) -> T * T) (g : cfg T) (fuel : nat).
Notation trun := (trun eps gold gold2 polyfit g fuel).

Definition line_ok (cg : cfg T) (pts : list (pt T)) (t : tl T) : Prop :=
  incl (t_pts t) pts /\ incl (t_bnd t) pts /\ incl (t_tan t) pts /\ incl (t_ext t) pts /\
  t_line t = line_fit polyfit (t_pts t) /\
  t_upper t = tolerance_line eps cg t true /\ t_lower t = tolerance_line eps cg t false /\
  (t_pred t = pred0 \/ exists l h, t_line t = Some l /\ hist eps gold gold2 cg (fst l) (t_pred t) h /\
     forall p, In p h -> snd p <> TInt -> In (fst p) pts).
Lemma trun_lines es r : trun trend0 es = Ok r ->
  incl (r_pts r) (scanned es) /\
  (forall t, In t (concat (r_up r)) -> line_ok (line_cfg g true) (scanned es) t) /\
  (forall t, In t (concat (r_lo r)) -> line_ok (line_cfg g false) (scanned es) t).
Proof.
  intro R. apply (trun_inv eps gold gold2 polyfit g fuel (fun p => In p (scanned es))) in R; [ | apply trinv0 | now apply Forall_forall ].
  destruct R as (A & B & C).
  assert (G : forall cg ls t, linvs eps gold gold2 polyfit (fun p => In p (scanned es)) cg ls -> In t (concat ls) -> line_ok cg (scanned es) t).
  { clear. intros cg ls t H K. apply in_concat in K. destruct K as (lines & K1 & K2). unfold linvs in H. rewrite Forall_forall in H.
    specialize (H lines K1). rewrite Forall_forall in H. specialize (H t K2).
    destruct H as [ ((Dp & Db) & (Dt & De) & L & Up & Lo) Pr ]. rewrite Forall_forall in Dp, Db, Dt, De. unfold line_ok, incl. auto 10. }
  split; [ rewrite Forall_forall in A; exact A | ]. split; intros t K; eapply G; eauto.
Qed.
(** Without updates the two sides have the same number of levels. *)
Lemma trun_levels es : forall r r', (forall e, In e es -> exists x y, e = TScan x y) ->
  trinv eps gold gold2 polyfit g (fun _ => True) r -> length (r_up r) = length (r_lo r) ->
  trun r es = Ok r' -> length (r_up r') = length (r_lo r').
Proof.
  induction es as [|e es IH]; intros r r' H I L R; [ now injection R as <- | ]. cbn [TrendTop.trun] in R.
  destruct (tstep eps gold gold2 polyfit g fuel r e) as [ r1 | ] eqn:E; [ | discriminate ]. cbn [rbind] in R.
  assert (I1 : trinv eps gold gold2 polyfit g (fun _ => True) r1) by (eapply tstep_inv; [ exact I | now apply Forall_forall | exact E ]).
  apply IH in R; auto; [ intros e' K; apply H; now right | ].
  destruct (H e) as (x & y & ->); [ now left | ]. destruct y as [ y | ]; cbn [tstep trend_scan] in E; [ | now injection E as <- ].
  destruct I as (A & B & C).
  match type of E with rbind ?X _ = _ => destruct X as [ [up lo] | ] eqn:E1; [ | discriminate E ]; cbn [rbind] in E end.
  injection E as <-. apply (scan_levels_inv eps gold gold2 polyfit g (fun _ => True)) in E1; auto.
  - destruct E1 as (_ & _ & E1). now apply E1.
  - now apply Forall_forall.
Qed.
Lemma trun_levels0 es r : (forall e, In e es -> exists x y, e = TScan x y) -> trun trend0 es = Ok r ->
  length (r_up r) = length (r_lo r).
Proof. intros H R. eapply trun_levels; [ exact H | apply trinv0 | reflexivity | exact R ]. Qed.
End Out.
(** min_point_distance is not handed to the lines (trend.py:221-230). *)
Lemma distance_ignored {T} {N : Num T} eps gold gold2 polyfit wd up mp d d' ln rel abs fuel es :
  trun eps gold gold2 polyfit (mkG wd up mp d ln rel abs) fuel trend0 es =
  trun eps gold gold2 polyfit (mkG wd up mp d' ln rel abs) fuel trend0 es.
Proof. reflexivity. Qed.
