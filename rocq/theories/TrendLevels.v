(** An invariant of lines carried to a Trend that only scans; and an update that
    begins after every scanned point, which changes nothing. *)
From Coq Require Import List ZArith Bool Lia QArith Qcanon Sorting.Sorted.
From Verif Require Import Base Num NumFacts Interval IntervalFacts Points Trend TrendGeo TrendPred TrendLineInv TrendCol TrendCross TrendTop.
Import ListNotations.
Open Scope bool_scope.

Tactic Notation "step" hyp(R) simple_intropattern(q) ident(E) :=
  match type of R with rbind ?X _ = _ => destruct X as q eqn:E; [ | discriminate R ]; cbn [rbind] in R end.

(** ** Levels *)
Section Levels.
Context {T : Type} {N : Num T}.
Variables (eps gold gold2 : T) (polyfit : list (pt T) -> T * T) (g : cfg T).
Variables (P : pt T -> Prop) (W : list (pt T) -> Prop).

Section Side.
Variables (cg : cfg T) (I : Trend.tl T -> Prop).
Hypothesis (I0 : forall p under t b, P p -> W under -> did_append eps gold gold2 polyfit cg tl0 p under = Ok (t, b) -> I t).
Hypothesis (I1 : forall t p under t' b, I t -> P p -> W under -> did_append eps gold gold2 polyfit cg t p under = Ok (t', b) -> I t').
Hypothesis (IP : forall t, I t -> Forall P (t_pts t)).
Definition lall (ls : levels T) : Prop := Forall (Forall I) ls.

Lemma set_nth {A} (l : list A) i x j : nth_error (list_set l i x) j = if (j =? i)%nat then (if (j <? length l)%nat then Some x else None) else nth_error l j.
Proof.
  revert i j. induction l as [|a l IH]; intros [|i] [|j]; cbn; auto.
  - now destruct (j =? i)%nat.
  - rewrite IH. reflexivity.
Qed.
Lemma put_all ls lv i t : lall ls -> I t -> lall (put_line ls lv i t).
Proof.
  intros H K. unfold put_line. destruct (nth_error ls lv) as [ lines | ] eqn:E; [ | exact H ].
  apply forall_set; [ exact H | ]. apply forall_set; [ exact (forall_nth _ _ _ _ H E) | exact K ].
Qed.
Lemma put_other (ls : levels T) lv i t j : j <> lv -> nth_error (put_line ls lv i t) j = nth_error ls j.
Proof.
  intros D. unfold put_line. destruct (nth_error ls lv); auto. rewrite set_nth. apply Nat.eqb_neq in D. now rewrite D.
Qed.
Lemma put_length (ls : levels T) lv i t : length (put_line ls lv i t) = length ls.
Proof. unfold put_line. destruct (nth_error ls lv); auto. apply list_set_length. Qed.

Lemma loop_all n : forall i lv ls p under rm np ls' rm' np', lall ls -> P p -> W under -> Forall P np ->
  append_loop eps gold gold2 polyfit cg n i lv ls p under rm np = Ok (ls', rm', np') ->
  lall ls' /\ Forall P np' /\ length ls' = length ls /\ forall j, j <> lv -> nth_error ls' j = nth_error ls j.
Proof.
  induction n as [|n IH]; intros i lv ls p under rm np ls' rm' np' H Hp Hu Hn R; cbn [append_loop] in R; [ injection R as <- <- <-; auto | ].
  destruct (nth_error ls lv) as [ lines | ] eqn:El; [ | discriminate ]. destruct (nth_error lines i) as [ t0 | ] eqn:Et; [ | discriminate ].
  pose proof (forall_nth _ _ _ _ (forall_nth _ _ _ _ H El) Et) as A0. cbv beta in A0.
  step R [ [t ch] | ] Ea. pose proof (I1 t0 p under t ch A0 Hp Hu Ea) as A1.
  pose proof (put_all ls lv i t H A1) as H1. pose proof (put_length ls lv i t) as Len. pose proof (put_other ls lv i t) as Oth.
  set (ls1 := put_line ls lv i t) in *. clearbody ls1.
  assert (G : forall np1 rm1, Forall P np1 -> append_loop eps gold gold2 polyfit cg n (S i) lv ls1 p under rm1 np1 = Ok (ls', rm', np') ->
    lall ls' /\ Forall P np' /\ length ls' = length ls /\ forall j, j <> lv -> nth_error ls' j = nth_error ls j).
  { intros np1 rm1 Hn1 R1. apply IH in R1; auto. destruct R1 as (A & B & C & D). repeat (split; [ auto; congruence | ]).
    intros j Hj. now rewrite D, Oth. }
  destruct (negb ch); [ now apply G in R | ].
  destruct (is_valid cg t).
  - destruct (negb (is_valid cg t0)); [ | now apply G in R ].
    step R [ c | ] Ec. destruct c; [ now apply G in R | ].
    destruct (head_opt (t_pts t)) as [ a | ] eqn:Eh; [ | discriminate ]. destruct (last_opt (t_pts t)) as [ z | ] eqn:Ez; [ | discriminate ].
    pose proof (IP t A1) as Dp.
    step R [ np1 | ] E1. step R [ np2 | ] E2. apply G in R; auto.
    eapply insort_draws; [ | | exact E2 ]; [ | eapply last_forall; eauto ].
    eapply insort_draws; [ exact Hn | | exact E1 ]. eapply head_forall; eauto.
  - destruct (is_ready t && _); [ | now apply G in R ]. step R [ c | ] Ec. now apply G in R.
Qed.
Lemma fork_all lines p under lines' : Forall I lines -> P p -> W under ->
  try_fork eps gold gold2 polyfit cg lines p under = Ok lines' -> Forall I lines' /\ lines' <> [].
Proof.
  intros H Hp Hu R. unfold try_fork in R. step R [ f | ] Ef. destruct f.
  - step R [ [t b] | ] Ea. injection R as <-. split; [ | now destruct lines ]. apply Forall_app. split; [ exact H | ]. constructor; [ | constructor ].
    exact (I0 p under t b Hp Hu Ea).
  - injection R as <-. split; [ exact H | ]. intros ->. discriminate.
Qed.
Lemma dels_all rm : forall lines, Forall I lines -> Forall I (fold_left (fun l i => del l i) rm lines).
Proof. induction rm as [|i rm IH]; intros lines H; [ exact H | ]. cbn. apply IH. now apply forall_del. Qed.
Lemma validate_all p lv ls under ls' np : lall ls -> P p -> W under ->
  append_validate eps gold gold2 polyfit cg p lv ls under = Ok (ls', np) ->
  lall ls' /\ Forall P np /\ length ls' = length ls /\ (forall j, j <> lv -> nth_error ls' j = nth_error ls j) /\
  forall lines, nth_error ls' lv = Some lines -> lines <> [].
Proof.
  intros H Hp Hu R. unfold append_validate in R. destruct (nth_error ls lv) as [ lines | ]; [ | discriminate ].
  step R [ [[ls1 rm] np1] | ] E1. apply loop_all in E1; auto. destruct E1 as (H1 & Hn & L1 & O1).
  destruct (nth_error ls1 lv) as [ lines1 | ] eqn:El; [ | discriminate ]. step R [ lines2 | ] E2. injection R as <- <-.
  apply fork_all in E2; auto; [ | apply dels_all; exact (forall_nth _ _ _ _ H1 El) ]. destruct E2 as [ E2 E3 ].
  split; [ now apply forall_set | ]. split; [ exact Hn | ]. split; [ now rewrite list_set_length | ]. split.
  - intros j Hj. rewrite set_nth. apply Nat.eqb_neq in Hj as Hj'. rewrite Hj'. auto.
  - intros l K. rewrite set_nth, Nat.eqb_refl in K. destruct (lv <? length ls1)%nat; [ injection K as <-; exact E3 | discriminate ].
Qed.
End Side.

Variables (Iu Il : Trend.tl T -> Prop).
Hypothesis (U0 : forall p under t b, P p -> W under -> did_append eps gold gold2 polyfit (line_cfg g true) tl0 p under = Ok (t, b) -> Iu t).
Hypothesis (U1 : forall t p under t' b, Iu t -> P p -> W under -> did_append eps gold gold2 polyfit (line_cfg g true) t p under = Ok (t', b) -> Iu t').
Hypothesis (UP : forall t, Iu t -> Forall P (t_pts t)).
Hypothesis (L0 : forall p under t b, P p -> W under -> did_append eps gold gold2 polyfit (line_cfg g false) tl0 p under = Ok (t, b) -> Il t).
Hypothesis (L1 : forall t p under t' b, Il t -> P p -> W under -> did_append eps gold gold2 polyfit (line_cfg g false) t p under = Ok (t', b) -> Il t').
Hypothesis (LP : forall t, Il t -> Forall P (t_pts t)).

(** Only the first level and level [lv] may have no lines. *)
Definition filled (lv : nat) (ls : levels T) : Prop := forall j lines, nth_error ls j = Some lines -> j = 0%nat \/ j = lv \/ lines <> [].
Lemma filled_step lv (ls ls' : levels T) : filled lv ls -> (forall j, j <> lv -> nth_error ls' j = nth_error ls j) ->
  (forall lines, nth_error ls' lv = Some lines -> lines <> []) -> filled 0 ls'.
Proof.
  intros F O K j lines Hj. destruct (Nat.eq_dec j lv) as [ -> | D ]; [ right; right; eauto | ].
  rewrite O in Hj by exact D. destruct (F j lines Hj) as [ ? | [ ? | ? ] ]; auto.
Qed.
Lemma filled_weak lv ls : filled 0 ls -> filled lv ls.
Proof. intros F j lines K. destruct (F j lines K) as [ ? | [ ? | ? ] ]; auto. Qed.

Lemma points_all under lv : W under -> forall ps up lo acc up' lo' acc', lall Iu up -> lall Il lo -> Forall P ps -> Forall P acc ->
  filled lv up -> filled lv lo ->
  level_points eps gold gold2 polyfit g ps lv up lo under acc = Ok (up', lo', acc') ->
  lall Iu up' /\ lall Il lo' /\ Forall P acc' /\ length up' = length up /\ length lo' = length lo /\
  (ps <> [] -> filled 0 up' /\ filled 0 lo').
Proof.
  intro Hu. induction ps as [|p ps IH]; intros up lo acc up' lo' acc' A B C D Fu Fl R; cbn [level_points] in R.
  { injection R as <- <- <-. refine (conj A (conj B (conj D (conj eq_refl (conj eq_refl _))))). intros K. now destruct K. }
  inversion C as [ | ? ? Cp Cps ]; subst.
  step R [ [up1 np1] | ] E1. apply (validate_all (line_cfg g true) Iu U0 U1 UP) in E1; auto. destruct E1 as (A1 & N1 & Q1 & O1 & K1).
  step R [ acc1 | ] E2. apply (insorts_draws P) in E2; auto.
  step R [ [lo1 np2] | ] E3. apply (validate_all (line_cfg g false) Il L0 L1 LP) in E3; auto. destruct E3 as (B1 & N2 & Q2 & O2 & K2).
  step R [ acc2 | ] E4. apply (insorts_draws P) in E4; auto.
  pose proof (filled_step _ _ _ Fu O1 K1) as F1. pose proof (filled_step _ _ _ Fl O2 K2) as F2.
  destruct ps as [|p' ps].
  - cbn [level_points] in R. injection R as <- <- <-. auto 8.
  - apply IH in R; auto using filled_weak. destruct R as (G1 & G2 & G3 & G4 & G5 & G6). repeat (split; [ auto; congruence | ]).
    intros _. apply G6. discriminate.
Qed.
Lemma filled_snoc lv (ls : levels T) : length ls = lv -> filled 0 ls -> filled lv (ls ++ [[]]).
Proof.
  intros E F j lines K. destruct (Nat.lt_ge_cases j (length ls)) as [ L | L ].
  - rewrite nth_error_app1 in K by exact L. destruct (F j lines K) as [ ? | [ ? | ? ] ]; auto.
  - right. left. assert (j < length (ls ++ [[]]))%nat by (apply nth_error_Some; congruence). rewrite app_length in H. cbn in H. lia.
Qed.
Lemma scan_all under : W under -> forall f lv ps up lo up' lo', lall Iu up -> lall Il lo -> Forall P ps -> ps <> [] ->
  filled lv up -> filled lv lo -> length up = length lo ->
  scan_levels eps gold gold2 polyfit g f lv ps up lo under = Ok (up', lo') ->
  lall Iu up' /\ lall Il lo' /\ length up' = length lo' /\ filled 0 up' /\ filled 0 lo'.
Proof.
  intro Hu. induction f as [|f IH]; intros lv ps up lo up' lo' A B C NE Fu Fl E R; [ discriminate | ]. cbn [scan_levels] in R.
  destruct (lv <? length up)%nat eqn:Lt; cbn [negb] in R.
  2:{ injection R as <- <-. repeat (split; [ assumption | ]). apply Nat.ltb_ge in Lt.
      assert (G : forall ls, filled lv ls -> (length ls <= lv)%nat -> filled 0 ls).
      { intros ls F L j lines K. destruct (F j lines K) as [ ? | [ -> | ? ] ]; auto. exfalso.
        assert (lv < length ls)%nat by (apply nth_error_Some; congruence). lia. }
      split; apply G; auto; congruence. }
  step R [ [[up1 lo1] acc] | ] E1. apply points_all in E1; auto. destruct E1 as (A1 & B1 & C1 & Q1 & Q2 & F).
  destruct (F NE) as [ F1 F2 ].
  destruct acc as [|a acc]; [ injection R as <- <-; repeat (split; [ assumption || congruence | ]); assumption | ].
  destruct (length up1 =? S lv)%nat eqn:El.
  - apply Nat.eqb_eq in El. apply IH in R; auto; try discriminate.
    + apply Forall_app; split; [ exact A1 | repeat constructor ].
    + apply Forall_app; split; [ exact B1 | repeat constructor ].
    + apply filled_snoc; auto.
    + apply filled_snoc; auto. congruence.
    + rewrite !app_length. cbn. congruence.
  - apply IH in R; auto; try discriminate; try congruence; auto using filled_weak.
Qed.
End Levels.

(** ** The points a line keeps *)
Section Kept.
Context {T : Type} {N : Num T}.
Variables (eps gold gold2 : T) (polyfit : list (pt T) -> T * T) (g : cfg T).

Lemma del_length {A} (l : list A) i : (length l <= S (length (del l i)))%nat.
Proof. revert i. induction l as [|a l IH]; intros [|i]; unfold del in *; cbn in *; try lia. specialize (IH i). lia. Qed.
Lemma skipn_long {A} (l : list A) i a b c r : skipn i l = a :: b :: c :: r -> (3 <= length l)%nat.
Proof. intros E. assert (length (skipn i l) = length (a :: b :: c :: r)) by now rewrite E. rewrite skipn_length in H. cbn in H. lia. Qed.
Lemma del_short {A} (l : list A) i : (i < length l)%nat -> S (length (del l i)) = length l.
Proof. revert i. induction l as [|a l IH]; intros [|i] L; unfold del in *; cbn in *; try lia. rewrite IH; lia. Qed.
Lemma skipn_three_len {A} (l : list A) i a b c r : skipn i l = a :: b :: c :: r -> (S i < length l)%nat.
Proof. intros E. assert (H : length (skipn i l) = length (a :: b :: c :: r)) by now rewrite E. rewrite skipn_length in H. cbn in H. lia. Qed.
Lemma prune_for_kept i : forall ex bnd co rem ex' bnd' co' rem', (1 <= length ex <= length bnd)%nat ->
  prune_for eps g i (ex, bnd, co, rem) = Ok (ex', bnd', co', rem') -> (1 <= length ex' <= length bnd')%nat.
Proof.
  induction i as [|i IH]; intros ex bnd co rem ex' bnd' co' rem' L R; cbn [prune_for] in R; [ now injection R as <- <- <- <- | ].
  destruct (skipn i ex) as [|p0 [|p1 [|p2 r]]] eqn:Es; try discriminate.
  step R [ c | ] E1. step R [ v | ] E2. destruct (c || eqb v (g_upper g)); [ | now apply IH in R ].
  apply IH in R; [ exact R | ]. pose proof (skipn_three_len _ _ _ _ _ _ Es) as L1. pose proof (skipn_long _ _ _ _ _ _ Es) as L3.
  pose proof (del_short ex (S i) L1). pose proof (del_length bnd (S i)). destruct c; lia.
Qed.
Lemma prune_while_kept f : forall ex bnd co ex' bnd' co', (1 <= length ex <= length bnd)%nat ->
  prune_while eps g f ex bnd co = Ok (ex', bnd', co') -> (1 <= length ex' <= length bnd')%nat.
Proof.
  induction f as [|f IH]; intros ex bnd co ex' bnd' co' L R; [ discriminate | ]. cbn [prune_while] in R.
  step R [ [[[ex1 bnd1] co1] rem] | ] E1. apply prune_for_kept in E1; auto. destruct rem; [ eauto | now injection R as <- <- <- ].
Qed.
Lemma prune_near_kept i : forall ex : list (pt T), ex <> [] -> prune_near g i ex <> [].
Proof.
  induction i as [|i IH]; intros ex H; cbn [prune_near]; auto. destruct (skipn i ex) as [|p0 [|p1 [|p2 r]]] eqn:Es; auto.
  destruct (_ || _); auto. apply IH. pose proof (skipn_long _ _ _ _ _ _ Es). pose proof (del_length ex (S i)). intros K. rewrite K in *. cbn in *. lia.
Qed.
Lemma set_trend_kept bnd pts bnd' : bnd <> [] -> set_trend eps g bnd = Ok (pts, bnd') -> pts <> [] /\ bnd' <> [].
Proof.
  intros NE R. unfold set_trend in R. step R [ [[ex b1] co] | ] E1.
  assert (L : (1 <= length bnd)%nat) by (destruct bnd; [ congruence | cbn; lia ]).
  apply prune_while_kept in E1; [ | lia ]. assert (B : b1 <> []) by (intros ->; cbn in E1; lia).
  assert (X : prune_near g (length ex - 2) ex <> []) by (apply prune_near_kept; intros ->; cbn in E1; lia).
  set (ex1 := prune_near g (length ex - 2) ex) in *. clearbody ex1. step R [ fin | ] E2. destruct fin as [ l | ].
  - step R [ r | ] E3. injection R as <- <-. split; [ discriminate | exact B ].
  - injection R as <- <-. auto.
Qed.
Definition kept (t : Trend.tl T) : Prop := t_pts t <> [] /\ t_bnd t <> [].
Lemma poi_kept cg t under t' b : update_poi cg t under = Ok (t', b) -> t_pts t' = t_pts t /\ t_bnd t' = t_bnd t.
Proof.
  unfold update_poi. destruct (negb (is_ready t)); [ intro H; injection H as <- <-; auto | ]. destruct under; [ intro H; injection H as <- <-; auto | ].
  intro R. step R [ o | ] E1. step R [ o1 | ] E2. destruct (o_found _); injection R as <- <-; auto.
Qed.
Lemma prediction_kept t under t' : update_prediction eps gold gold2 g t under = Ok t' -> t_pts t' = t_pts t /\ t_bnd t' = t_bnd t.
Proof.
  unfold update_prediction. destruct (negb (is_valid g t)); [ intro H; injection H as <-; auto | ].
  intro R. step R [ l | ] E1. step R [ ps | ] E2. step R [ q | ] E3. injection R as <-. auto.
Qed.
Lemma update_trend_kept t under t' : t_bnd t <> [] -> (is_valid g t = true -> t_pts t <> []) ->
  update_trend eps gold gold2 polyfit g t under = Ok t' -> kept t'.
Proof.
  intros B V R. unfold update_trend in R. step R [ [pts bnd] | ] E1.
  assert (K : pts <> [] /\ bnd <> []).
  { destruct (is_valid g t); [ injection E1 as <- <-; auto | now apply set_trend_kept in E1 ]. }
  step R [ [t2 b2] | ] E2. apply poi_kept in E2. apply prediction_kept in R. destruct E2 as [ E2 E3 ], R as [ R1 R2 ].
  unfold kept. rewrite R1, R2. unfold update_interval. cbn [t_pts t_bnd]. rewrite E2, E3. exact K.
Qed.
Lemma insert_some {A} (l : list A) i x : list_insert l i x <> [].
Proof. unfold list_insert. destruct (firstn i l); discriminate. Qed.
Lemma insort_some (a : list (pt T)) p lo hi nr a' : insort a p lo hi nr = Ok a' -> a' <> [].
Proof.
  unfold insort. destruct (lo <? 0)%Z; [ discriminate | ]. intro R. step R [ i | ] E.
  destruct (nr && _) eqn:A; cbn [andb] in R; [ | injection R as <-; apply insert_some ].
  destruct (nth_error a (Z.to_nat i)) as [ q | ] eqn:Nq; [ | injection R as <-; apply insert_some ].
  destruct (fst p =? fst q)%num; injection R as <-; [ intros -> ; destruct (Z.to_nat i); discriminate | apply insert_some ].
Qed.
Lemma append_kept t p under t' b : (t = tl0 \/ kept t) -> did_append eps gold gold2 polyfit g t p under = Ok (t', b) -> kept t'.
Proof.
  intros K R. unfold did_append in R.
  destruct (is_ready t && _) eqn:E0.
  { injection R as <- <-. destruct K as [ -> | K ]; [ discriminate | exact K ]. }
  destruct (is_valid g t) eqn:V; cbn [negb] in R.
  - assert (K' : kept t).
    { destruct K as [ -> | K ]; [ | exact K ]. exfalso. unfold is_valid in V. revert V. cbn. intros V. now destruct (is_ready tl0). }
    clear K. destruct K' as [ K1 K2 ]. step R [ on | ] Eo. destruct on.
    + step R [ bnd | ] E1. step R [ pts | ] E2. step R [ t1 | ] E3. injection R as <- <-.
      apply update_trend_kept in E3; [ exact E3 | cbn; eapply insort_some; eauto | cbn; intros _; eapply insort_some; eauto ].
    + step R [ [t1 ch] | ] E1. step R [ t2 | ] E2. injection R as <- <-. apply poi_kept in E1. apply prediction_kept in E2.
      destruct E1 as [ A B ], E2 as [ C D ]. split; congruence.
  - step R [ bnd | ] E1. step R [ t1 | ] E2. injection R as <- <-.
    apply update_trend_kept in E2; [ exact E2 | cbn; eapply insort_some; eauto | ]. intros V'. change (is_valid g t = true) in V'. congruence.
Qed.
(** An update after everything the line keeps. *)
Lemma stale_none d (l : list (pt T)) : Forall (fun p => i_contains d (fst p) = false) l -> remove_stale d l = l.
Proof.
  intros H. unfold remove_stale. rewrite <- (rev_involutive l) at 2. f_equal. apply Forall_rev in H.
  assert (G : forall r : list (pt T), Forall (fun p => i_contains d (fst p) = false) r -> drop_stale d r = r).
  { clear. induction r as [|p r IH]; intros F; auto. cbn. inversion F as [|? ? A B]; subst. rewrite A, IH by assumption. now destruct (fst p <? i_start d)%num. }
  auto.
Qed.
Definition before_all (d : ival T) (t : Trend.tl T) : Prop :=
  Forall (fun p => i_contains d (fst p) = false) (t_pts t ++ t_bnd t ++ t_tan t ++ t_cross t ++ t_ext t).
Lemma begin_none t d under : before_all d t -> tl_begin eps gold gold2 polyfit g t d under = Ok t.
Proof.
  intros H. unfold before_all in H. rewrite !Forall_app in H. destruct H as (A & B & C & D & E). unfold tl_begin.
  destruct (negb _); auto. rewrite !stale_none, !Nat.eqb_refl by assumption. destruct t; reflexivity.
Qed.
Lemma begin_lines_none d under lines : Forall (fun t => before_all d t /\ t_pts t <> []) lines ->
  begin_lines eps gold gold2 polyfit g lines d under = Ok lines.
Proof.
  induction 1 as [|t lines [ A B ] H IH]; auto. cbn [begin_lines]. rewrite IH. cbn [rbind]. rewrite begin_none by exact A. cbn [rbind].
  destruct (t_pts t); [ congruence | reflexivity ].
Qed.
Lemma begin_rest_none d under ls : Forall (Forall (fun t => before_all d t /\ t_pts t <> [])) ls -> Forall (fun l => l <> []) ls ->
  begin_levels eps gold gold2 polyfit g false ls d under = Ok ls.
Proof.
  induction 1 as [|l ls A H IH]; intros F; auto. inversion F; subst. cbn [begin_levels]. rewrite IH by assumption. cbn [rbind].
  rewrite begin_lines_none by exact A. cbn [rbind]. destruct l; [ congruence | reflexivity ].
Qed.
Lemma begin_levels_none d under ls : Forall (Forall (fun t => before_all d t /\ t_pts t <> [])) ls -> filled 0 ls ->
  begin_levels eps gold gold2 polyfit g true ls d under = Ok ls.
Proof.
  intros H F. destruct ls as [|l ls]; auto. inversion H; subst. cbn [begin_levels]. rewrite begin_rest_none; [ | assumption | ].
  - cbn [rbind]. rewrite begin_lines_none by assumption. destruct l; reflexivity.
  - apply Forall_forall. intros l' K. apply In_nth_error in K. destruct K as [ j K ]. destruct (F (S j) l' K) as [ ? | [ ? | ? ] ]; auto; discriminate.
Qed.
End Kept.

(** ** Scanning points in order, then an update after them *)
Section After.
Variables (eps gold gold2 : xq) (polyfit : list (xq * xq) -> xq * xq) (g : cfg xq) (fuel : nat) (z : Qc).
Hypothesis (Hlen : exists q, g_len g = Fin q).
Hypothesis (Hfit : forall ps, (3 <= length ps)%nat -> Forall fpt ps -> exists c m, polyfit ps = (Fin c, Fin m)).
Open Scope Qc_scope.

Definition upto (p : xq * xq) : Prop := exists q : qpt, p = fp q /\ fst q <= z.
Lemma upto_fpt p : upto p -> fpt p.
Proof. intros (q & -> & _). now exists q. Qed.
Definition under_ok (u : list (xq * xq)) : Prop := uok upto u.
Definition linvz (cg : cfg xq) (t : Trend.tl xq) : Prop :=
  linv eps gold gold2 polyfit cg upto upto t /\ kept t /\ cinv eps gold gold2 polyfit cg upto t.

Lemma line_len up : exists q, g_len (line_cfg g up) = Fin q.
Proof. exact Hlen. Qed.
Lemma linvz_step up t p under t' b : (t = tl0 \/ linvz (line_cfg g up) t) -> upto p -> under_ok under ->
  did_append eps gold gold2 polyfit (line_cfg g up) t p under = Ok (t', b) -> linvz (line_cfg g up) t'.
Proof.
  intros H Hp Hu R.
  assert (A : linv eps gold gold2 polyfit (line_cfg g up) upto upto t).
  { destruct H as [ -> | H ]; [ apply linv0 | apply H ]. }
  assert (B : t = tl0 \/ kept t) by (destruct H as [ H | H ]; [ auto | right; apply H ]).
  assert (C : cinv eps gold gold2 polyfit (line_cfg g up) upto t).
  { destruct H as [ -> | H ]; [ apply cinv0 | apply H ]. }
  split; [ exact (did_append_inv eps gold gold2 polyfit (line_cfg g up) upto upto t p under t' b A Hp (uok_forall _ _ Hu) R) | ].
  split; [ exact (append_kept eps gold gold2 polyfit (line_cfg g up) t p under t' b B R) | ].
  apply (lstep_cross eps gold gold2 polyfit (line_cfg g up) upto upto_fpt (line_len up) Hfit t (LAppend p under)); [ exact C | | ].
  - split; [ now apply upto_fpt | exact Hu ].
  - cbn [lstep]. now rewrite R.
Qed.
Lemma linvz_points up t : linvz (line_cfg g up) t -> Forall upto (t_pts t).
Proof. intros ([ ((A & _) & _) _ ] & _). exact A. Qed.

(** What holds of a trend that scanned the points [us] in order. *)
Record at_z (r : trend xq) (us : list qpt) : Prop := {
  az_pts : r_pts r = map fp us;
  az_up : lall (linvz (line_cfg g true)) (r_up r);
  az_lo : lall (linvz (line_cfg g false)) (r_lo r);
  az_len : length (r_up r) = length (r_lo r);
  az_fu : filled 0 (r_up r);
  az_fl : filled 0 (r_lo r)
}.
Lemma at_z0 : at_z trend0 [].
Proof.
  assert (F : filled (T := xq) 0 [[]]) by (intros [|[|j]] lines K; cbn in K; try discriminate; auto).
  constructor; cbn; auto; unfold lall; auto using Forall_cons, Forall_nil.
Qed.
Lemma at_z_scan r us p r' : at_z r us -> StronglySorted by_xs (us ++ [p]) -> Forall (fun q => fst q <= z) (us ++ [p]) ->
  trend_scan eps gold gold2 polyfit g fuel r (Fin (fst p)) (Some (Fin (snd p))) = Ok r' -> at_z r' (us ++ [p]).
Proof.
  intros [A B C D E F] So Fo R. unfold trend_scan in R. step R [ [up lo] | ] E1. injection R as <-.
  assert (EU : r_pts r ++ [(Fin (fst p), Fin (snd p))] = map fp (us ++ [p])) by (rewrite map_app, A; reflexivity).
  rewrite EU in *.
  assert (Hu : under_ok (map fp (us ++ [p]))).
  { exists (us ++ [p]). split; auto. split; auto. apply Forall_forall. intros a Ia. exists a. split; auto. rewrite Forall_forall in Fo. auto. }
  assert (Pp : upto (fp p)).
  { exists p. split; auto. rewrite Forall_forall in Fo. apply Fo. apply in_or_app. right. now left. }
  apply (scan_all eps gold gold2 polyfit g upto under_ok (linvz (line_cfg g true)) (linvz (line_cfg g false))) in E1; auto; try discriminate.
  - destruct E1 as (X1 & X2 & X3 & X4 & X5). constructor; auto.
  - intros q u t b Hq Hu' R. eapply linvz_step; eauto.
  - intros t q u t' b Ht Hq Hu' R. eapply linvz_step; eauto.
  - intros t. apply linvz_points.
  - intros q u t b Hq Hu' R. eapply linvz_step; eauto.
  - intros t q u t' b Ht Hq Hu' R. eapply linvz_step; eauto.
  - intros t. apply linvz_points.
Qed.
Lemma passage_before l c : passage upto l c -> fst c <= z.
Proof.
  intros (a & b & _ & (q & E & L) & _ & K & _). injection E as E _. rewrite <- E in L. apply Qclt_le_weak.
  eapply Qclt_le_trans; eauto.
Qed.
Lemma linvz_before up t d : linvz (line_cfg g up) t -> (forall x, x <= z -> i_contains d (Fin x) = false) ->
  before_all d t /\ t_pts t <> [].
Proof.
  intros (A & [ K _ ] & C) H. split; [ | exact K ]. destruct A as [ ((Dp & Db) & (Dt & De) & _) _ ].
  assert (G : forall l, Forall upto l -> Forall (fun p => i_contains d (fst p) = false) l).
  { intros l. apply Forall_impl. intros p (q & -> & L). cbn. auto. }
  unfold before_all. rewrite !Forall_app. repeat (split; auto).
  destruct C as (_ & C & _). unfold crosses in C. destruct (t_line t); [ | rewrite C; constructor ].
  destruct C as (l & cs & _ & -> & _ & P). apply Forall_map. eapply Forall_impl; [ | exact P ]. intros c Pc. cbn. apply H. eapply passage_before; eauto.
Qed.
Theorem begin_after r us d : at_z r us -> Forall (fun q => fst q <= z) us -> (forall x, x <= z -> i_contains d (Fin x) = false) ->
  trend_begin eps gold gold2 polyfit g r d = Ok r.
Proof.
  intros [A B C _ E F] L H. unfold trend_begin.
  rewrite !begin_levels_none; auto.
  - cbn [rbind]. rewrite stale_none; [ destruct r; reflexivity | ]. rewrite A. apply Forall_map. eapply Forall_impl; [ | exact L ].
    intros q Lq. cbn. auto.
  - eapply Forall_impl; [ | exact C ]. intros l. apply Forall_impl. intros t Ht. eapply linvz_before; eauto.
  - eapply Forall_impl; [ | exact B ]. intros l. apply Forall_impl. intros t Ht. eapply linvz_before; eauto.
Qed.
End After.
