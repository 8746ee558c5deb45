(** Invariants of a TrendLine over any sequence of appended points and begun
    updates, for every number type. *)
From Coq Require Import List ZArith Bool Lia.
From Verif Require Import Base Num Interval Points Trend TrendPred.
Import ListNotations.
Open Scope num_scope.
Open Scope bool_scope.

Section LineInv.
Context {T : Type} {N : Num T}.
Variables (eps gold gold2 : T) (polyfit : list (pt T) -> T * T) (g : cfg T).
Notation pt := (pt T).
Notation tl := (tl T).

(** What happens to a line: a point is appended, or an update begins. *)
Inductive lev := LAppend (p : pt) (under : list pt) | LBegin (d : ival T) (under : list pt).
Definition lstep (t : tl) (e : lev) : res tl :=
  match e with
  | LAppend p under => let! (t, _) := did_append eps gold gold2 polyfit g t p under in Ok t
  | LBegin d under => tl_begin eps gold gold2 polyfit g t d under
  end.
Fixpoint lrun (t : tl) (es : list lev) : res tl :=
  match es with [] => Ok t | e :: es => let! t := lstep t e in lrun t es end.
(** the points appended, and those underneath *)
Definition given (es : list lev) : list pt := flat_map (fun e => match e with LAppend p _ => [p] | _ => [] end) es.
Definition underneath (es : list lev) : list pt :=
  flat_map (fun e => match e with LAppend _ u | LBegin _ u => u end) es.

Tactic Notation "step" hyp(R) simple_intropattern(q) := match type of R with rbind ?X _ = _ => destruct X as q eqn:?; [ | discriminate R ]; cbn [rbind] in R end.

(** *** What the operations draw on *)
Lemma forall_del {A} (P : A -> Prop) l i : Forall P l -> Forall P (del l i).
Proof.
  intro H. unfold del. apply Forall_app. split.
  - apply Forall_forall. intros x Hx. rewrite Forall_forall in H. apply H.
    rewrite <- (firstn_skipn i l). apply in_or_app. now left.
  - apply Forall_forall. intros x Hx. rewrite Forall_forall in H. apply H.
    rewrite <- (firstn_skipn (S i) l). apply in_or_app. now right.
Qed.
Lemma forall_insert {A} (P : A -> Prop) l i x : Forall P l -> P x -> Forall P (list_insert l i x).
Proof.
  intros H K. unfold list_insert. rewrite <- (firstn_skipn i l) in H. apply Forall_app in H. apply Forall_app. split; [ apply H | ].
  constructor; [ exact K | apply H ].
Qed.
Lemma insort_draws (P : pt -> Prop) a p lo hi nr a' : Forall P a -> P p -> insort a p lo hi nr = Ok a' -> Forall P a'.
Proof.
  intros H K. unfold insort. destruct (lo <? 0)%Z; [ discriminate | ]. intro R. step R [ i | ].
  match type of R with (if ?c then _ else _) = _ => destruct c end; injection R as <-; [ exact H | now apply forall_insert ].
Qed.
Lemma skipn_forall {A} (P : A -> Prop) l i : Forall P l -> Forall P (skipn i l).
Proof. intro H. rewrite <- (firstn_skipn i l) in H. apply Forall_app in H. apply H. Qed.

Section Draw.
Variable P : pt -> Prop.
Lemma prune_for_draws i : forall ex bnd co rem ex' bnd' co' rem', Forall P ex -> Forall P bnd -> Forall P co ->
  prune_for eps g i (ex, bnd, co, rem) = Ok (ex', bnd', co', rem') -> Forall P ex' /\ Forall P bnd' /\ Forall P co'.
Proof.
  induction i as [|i IH]; intros ex bnd co rem ex' bnd' co' rem' A B C R; [ injection R as <- <- <- <-; auto | ].
  cbn [prune_for] in R. destruct (skipn i ex) as [|p0 [|p1 [|p2 l]]] eqn:E; try discriminate.
  assert (P1 : P p1). { apply (skipn_forall P ex i) in A. rewrite E in A. rewrite Forall_forall in A. apply A. cbn. auto. }
  step R [ c | ]. step R [ v | ].
  destruct (c || eqb v (g_upper g)); [ | now apply IH in R ].
  apply IH in R; auto; [ now apply forall_del | destruct c; [ exact B | now apply forall_del ] | ].
  match goal with |- Forall P (if ?x then _ else _) => destruct x end; [ | exact C ]. apply Forall_app. auto.
Qed.
Lemma prune_while_draws f : forall ex bnd co ex' bnd' co', Forall P ex -> Forall P bnd -> Forall P co ->
  prune_while eps g f ex bnd co = Ok (ex', bnd', co') -> Forall P ex' /\ Forall P bnd' /\ Forall P co'.
Proof.
  induction f as [|f IH]; intros ex bnd co ex' bnd' co' A B C R; [ discriminate | ]. cbn [prune_while] in R.
  step R [ [[[ex1 bnd1] co1] rem] | ]. apply prune_for_draws in Heqr as (A1 & B1 & C1); auto.
  destruct rem; [ now apply IH in R | injection R as <- <- <-; auto ].
Qed.
Lemma prune_near_draws i : forall ex, Forall P ex -> Forall P (prune_near g i ex).
Proof.
  induction i as [|i IH]; intros ex H; [ exact H | ]. cbn [prune_near].
  destruct (skipn i ex) as [|p0 [|p1 [|p2 l]]]; auto. destruct (_ || _); apply IH; [ now apply forall_del | exact H ].
Qed.
Lemma pairs_draws l s : Forall P l -> In s (pairs l) -> P (fst s) /\ P (snd s).
Proof.
  induction l as [|a l IH]; intros H K; [ contradiction | ]. inversion H as [ | ? ? Pa Hl ]; subst.
  destruct l as [|b l]; [ contradiction | ]. cbn [pairs] in K. destruct K as [ <- | K ]; [ | now apply IH ].
  inversion Hl; subst. auto.
Qed.
Lemma best_line_in bnd l : forall best s, best_line bnd best l = Ok (Some s) ->
  In s l \/ exists f, best = Some (s, f).
Proof.
  induction l as [|a l IH]; intros best s R; cbn [best_line] in R.
  - destruct best as [ [b f] | ]; [ | discriminate ]. injection R as <-. right. now exists f.
  - step R [ f | ]. apply IH in R. destruct R as [ R | (f' & R) ]; [ left; now right | ].
    destruct best as [ [b fb] | ].
    + destruct (f <? fb); injection R as <- <-; [ left; now left | right; eauto ].
    + injection R as <- <-. left. now left.
Qed.
Lemma keep_draws l : forall ps r, Forall P ps -> keep_on_line eps g l ps = Ok r -> Forall P r.
Proof.
  induction ps as [|p ps IH]; intros r H R; cbn [keep_on_line] in R; [ now injection R as <- | ].
  inversion H; subst. step R [ b | ]. step R [ r1 | ]. injection R as <-.
  destruct b; [ constructor; auto | ]; eapply IH; eauto.
Qed.
Lemma set_trend_draws bnd pts bnd' : Forall P bnd -> set_trend eps g bnd = Ok (pts, bnd') -> Forall P pts /\ Forall P bnd'.
Proof.
  intros H R. unfold set_trend in R. step R [ [[ex bnd1] co] | ].
  apply prune_while_draws in Heqr as (A & B & C); auto. apply (prune_near_draws (length ex - 2)) in A.
  set (ex1 := prune_near g (length ex - 2) ex) in *. step R [ fin | ].
  destruct fin as [ l | ]; [ | injection R as <- <-; auto ].
  step R [ r | ]. injection R as <- <-. split; [ | exact B ].
  assert (E : P (fst l) /\ P (snd l)).
  { clearbody ex1. destruct ex1 as [|a [|b [|c ex1]]]; try discriminate.
    - injection Heqr as <-. inversion A as [ | ? ? Pa A1 ]; subst. inversion A1; subst. auto.
    - apply best_line_in in Heqr. destruct Heqr as [ K | (f & K) ]; [ | discriminate ].
      exact (pairs_draws _ _ A K). }
  apply keep_draws in Heqr0; [ | exact C ]. constructor; [ apply E | ]. apply Forall_app. split; [ exact Heqr0 | ]. constructor; [ apply E | constructor ].
Qed.
Lemma drop_draws d : forall l, Forall P l -> Forall P (drop_stale d l).
Proof.
  induction l as [|p l IH]; intro H; [ exact H | ]. inversion H; subst. cbn [drop_stale].
  destruct (i_contains d (fst p)); [ now apply IH | ]. destruct (fst p <? i_start d); [ exact H | ]. constructor; auto.
Qed.
Lemma stale_draws d l : Forall P l -> Forall P (remove_stale d l).
Proof. intro H. unfold remove_stale. apply Forall_rev, drop_draws, Forall_rev, H. Qed.

(** the points of interest *)
Definition drawn_poi (o : poi T) : Prop :=
  Forall P (o_on o) /\ Forall P (o_new o) /\ Forall P (o_tan o) /\ match o_ext o with Some e => P e | None => True end /\
  match o_pp o with Some e => P e | None => True end.
Lemma closest_draws t : forall ps best c, Forall P ps -> match best with Some (p, _) => P p | None => True end ->
  closest t best ps = Ok (Some c) -> P c.
Proof.
  induction ps as [|p ps IH]; intros best c H B R; cbn [closest] in R.
  - destruct best as [ [b f] | ]; [ | discriminate ]. now injection R as <-.
  - inversion H; subst. step R [ y | ]. eapply IH in R; eauto. destruct best as [ [b f] | ]; [ | assumption ].
    destruct (_ <? f); assumption.
Qed.
Lemma flush_draws t ti o o' : drawn_poi o -> flush_on t ti o = Ok o' -> drawn_poi o'.
Proof.
  intros (A & B & C & D & E) R. unfold flush_on in R. destruct (o_on o) as [|a l] eqn:On; [ injection R as <-; split; [ now rewrite On | auto ] | ].
  step R [ c | ]. destruct c as [ c | ]; [ | discriminate ]. cbn [need rbind] in R. injection R as <-.
  apply closest_draws in Heqr; [ | exact A | exact Logic.I ].
  split; [ constructor | ]. split; [ exact B | ]. split; [ now apply forall_insert | ]. split; [ exact D | exact E ].
Qed.
Lemma push_draws o : drawn_poi o -> drawn_poi (push_ext o).
Proof.
  intros (A & B & C & D & E). unfold push_ext. destruct (o_ext o) as [ e | ] eqn:X.
  - split; [ exact A | ]. split; [ constructor; auto | ]. split; [ exact C | ]. split; [ exact Logic.I | exact E ].
  - split; [ exact A | ]. split; [ exact B | ]. split; [ exact C | ]. split; [ now rewrite X | exact E ].
Qed.
Lemma poi_loop_draws t ui ci ti : forall ps o o', Forall P ps -> drawn_poi o -> poi_loop t ui ci ti o ps = Ok o' -> drawn_poi o'.
Proof.
  induction ps as [|p ps IH]; intros o o' H D R; cbn [poi_loop] in R; [ now injection R as <- | ].
  inversion H as [ | ? ? Pp Hl ]; subst. destruct (negb _); [ now injection R as <- | ].
  step R [ on | ]. destruct on.
  - apply IH in R; auto. apply push_draws in D. destruct D as (A & B & C & D & E).
    split; [ constructor; auto | auto ].
  - step R [ o1 | ]. apply flush_draws in Heqr0; [ | exact D ]. step R [ y | ].
    match type of R with rbind ?X _ = _ => destruct X as [ o2 | ] eqn:E2; [ | discriminate R ]; cbn [rbind] in R end.
    assert (D2 : drawn_poi o2).
    { match type of E2 with (if ?c then _ else _) = _ => destruct c end; [ | now injection E2 as <- ].
      step E2 [ l | ]. step E2 [ pp | ]. step E2 [ i | ]. step E2 [ i1 | ]. injection E2 as <-. apply push_draws. exact Heqr0. }
    destruct D2 as (A & B & C & D2 & E).
    match type of R with (let '(_, _) := ?X in _) = _ => destruct X as [e d] eqn:Ex end.
    apply IH in R; auto. split; [ exact A | ]. split; [ exact B | ]. split; [ exact C | ]. split; [ | exact Pp ]. cbn.
    destruct (o_ext o2) as [ e2 | ]; [ | injection Ex as <- <-; exact Pp ].
    destruct (_ >? _); injection Ex as <- <-; [ exact Pp | exact D2 ].
Qed.
End Draw.

(** *** The invariant *)
Section Inv.
Variables (P U : pt -> Prop).
Definition lbase (t : tl) : Prop :=
  (Forall P (t_pts t) /\ Forall P (t_bnd t)) /\ (Forall U (t_tan t) /\ Forall U (t_ext t)) /\
  t_line t = line_fit polyfit (t_pts t) /\
  t_upper t = tolerance_line eps g t true /\ t_lower t = tolerance_line eps g t false.
Definition lpred (t : tl) : Prop :=
  t_pred t = pred0 \/ exists l h, t_line t = Some l /\ hist eps gold gold2 g (fst l) (t_pred t) h /\
    forall p, In p h -> snd p <> TInt -> U (fst p).
Definition linv (t : tl) : Prop := lbase t /\ lpred t.

Lemma removelast_forall {A} (Q : A -> Prop) l : Forall Q l -> Forall Q (removelast l).
Proof. induction l as [|a l IH]; intro H; [ exact H | ]. inversion H; subst. cbn. destruct l; [ constructor | constructor; auto ]. Qed.

Lemma update_poi_inv t under t' b : lbase t -> Forall U under -> update_poi g t under = Ok (t', b) ->
  lbase t' /\ t_pts t' = t_pts t /\ t_bnd t' = t_bnd t /\ t_line t' = t_line t /\ t_pred t' = t_pred t.
Proof.
  intros I H R. unfold update_poi in R. destruct (negb (is_ready t)); [ injection R as <- <-; auto | ].
  destruct under as [|u0 under]; [ injection R as <- <-; auto | ]. set (us := u0 :: under) in *.
  destruct I as (D & (Dt & De) & L & Up & Lo).
  step R [ o | ]. step R [ o1 | ].
  assert (D0 : drawn_poi U (mkPoi n_zero None false [] [] None n_zero (t_cross t) (t_tan t))) by (split; [ constructor | ]; split; [ constructor | ]; cbn; auto).
  apply poi_loop_draws with (P := U) in Heqr; [ | now apply Forall_rev | exact D0 ].
  apply flush_draws with (P := U) in Heqr0; [ | exact Heqr ]. apply push_draws in Heqr0.
  set (o2 := push_ext o1) in *. destruct Heqr0 as (_ & Dn & Dt2 & _).
  match type of R with Ok (if _ then update_interval _ ?t1 else _, _) = _ => set (t2 := t1) in * end.
  assert (E1 : Forall U (t_ext t2)).
  { cbn. destruct (o_new o2) as [|e l]; [ exact De | ]. destruct (last_opt (t_ext t)); [ | exact Dn ].
    apply Forall_app. split; [ | exact Dn ]. destruct (_ >=? _); [ now apply removelast_forall | exact De ]. }
  assert (I1 : lbase t2 /\ lbase (update_interval g t2)).
  { split; (split; [ exact D | ]; split; [ split; [ exact Dt2 | exact E1 ] | ]; auto). }
  destruct (o_found o2); injection R as <- <-; (split; [ apply I1 | auto ]).
Qed.
Lemma ins_sorted_in (p x : tpt T) : forall l, In x (ins_sorted p l) -> x = p \/ In x l.
Proof.
  induction l as [|q l IH]; [ intros [ <- | [] ]; now left | ]. cbn [ins_sorted]. destruct (_ <? _)%num.
  - intros [ <- | K ]; [ now left | now right ].
  - intros [ <- | K ]; [ right; now left | ]. destruct (IH K) as [ -> | K' ]; [ now left | right; now right ].
Qed.
Lemma sort_pts_in (x : tpt T) l : In x (sort_pts l) -> In x l.
Proof.
  assert (G : forall l a, In x (fold_left (fun a p => ins_sorted p a) l a) -> In x l \/ In x a).
  { clear l. induction l as [|p l IH]; intros b K; [ now right | ]. cbn [fold_left] in K. destruct (IH _ K) as [ K' | K' ]; [ left; now right | ].
    destruct (ins_sorted_in _ _ _ K') as [ -> | K2 ]; [ left; now left | now right ]. }
  intro K. destruct (G _ _ K) as [ K' | [] ]. exact K'.
Qed.
Lemma sub_in {A} (a b : list A) x : sub a b -> In x a -> In x b.
Proof. induction 1 as [ | a b y H IH | a b y H IH ]; intro K; [ exact K | right; auto | destruct K as [ <- | K ]; [ now left | right; auto ] ]. Qed.
Lemma beyond_draws t : forall ps r, Forall U ps -> beyond g t ps = Ok r -> Forall U r.
Proof.
  induction ps as [|p ps IH]; intros r F R; [ injection R as <-; constructor | ]. cbn [beyond] in R.
  step R [ y | ]. step R [ r1 | ].
  pose proof (IH _ (Forall_inv_tail F) eq_refl) as F1. pose proof (Forall_inv F) as Up.
  match type of R with Ok (if ?c then _ else _) = _ => destruct c end; injection R as <-; auto.
Qed.
Lemma poi_points_draws t ps : Forall U (t_tan t) -> Forall U (t_ext t) -> poi_points g t = Ok ps ->
  forall p, In p ps -> snd p <> TInt -> U (fst p).
Proof.
  intros Ft Fe R p K Nk. unfold poi_points in R. step R [ ex | ]. injection R as <-. apply sort_pts_in in K.
  pose proof (beyond_draws _ _ _ Fe Heqr) as Fx. rewrite Forall_forall in Fx, Ft.
  apply in_app_or in K. destruct K as [ K | K ]; [ | apply in_app_or in K; destruct K as [ K | K ] ];
    apply in_map_iff in K; destruct K as ([x y] & <- & K); cbn [fst snd] in *; [ now apply Fx | now apply Ft | congruence ].
Qed.
Lemma update_prediction_inv t under t' : linv t -> update_prediction eps gold gold2 g t under = Ok t' -> linv t'.
Proof.
  intros ((D & Du & L & Up & Lo) & Pr) R. unfold update_prediction in R. destruct (negb (is_valid g t)).
  { injection R as <-. split; [ | exact Pr ]. split; auto. }
  destruct (t_line t) as [ l | ] eqn:El; [ | discriminate ]. cbn [need rbind] in R.
  step R [ ps | ]. step R [ q | ]. injection R as <-.
  split.
  - split; [ exact D | ]. split; [ exact Du | ]. cbn [t_line t_pts t_upper t_lower t_pred].
    split; [ exact L | ]. split; [ rewrite Up; unfold tolerance_line; cbn; now rewrite El | rewrite Lo; unfold tolerance_line; cbn; now rewrite El ].
  - right. cbn [t_line t_pred]. unfold lpred in Pr. rewrite El in Pr. 
    pose proof (poi_points_draws t ps (proj1 Du) (proj2 Du) Heqr) as Dr.
    destruct Pr as [ Pr | (l2 & h & E2 & Hh & Dh) ].
    + rewrite Pr in Heqr0. apply predict_hist with (og := fst l) (h := []) in Heqr0; [ | apply hist_start ].
      destruct Heqr0 as (k & Sk & Hk). exists l, k. split; [ reflexivity | ]. split; [ exact Hk | ].
      intros p K. apply Dr. exact (sub_in _ _ _ Sk K).
    + injection E2 as <-. apply predict_hist with (og := fst l) (h := h) in Heqr0; [ | now apply hist_origin ].
      destruct Heqr0 as (k & Sk & Hk). exists l, (h ++ k). split; [ reflexivity | ]. split; [ exact Hk | ].
      intros p K. apply in_app_or in K. destruct K as [ K | K ]; [ now apply Dh | apply Dr; exact (sub_in _ _ _ Sk K) ].
Qed.
Lemma update_trend_inv t under t' : Forall P (t_pts t) -> Forall P (t_bnd t) -> Forall U under ->
  update_trend eps gold gold2 polyfit g t under = Ok t' -> linv t'.
Proof.
  intros A B H R. unfold update_trend in R. step R [ [pts bnd] | ].
  assert (D : Forall P pts /\ Forall P bnd).
  { destruct (is_valid g t); [ injection Heqr as <- <-; auto | now apply set_trend_draws with (P := P) in Heqr ]. }
  match type of R with rbind (update_poi _ ?x _) _ = _ => set (t1 := x) in * end.
  assert (I1 : lbase t1).
  { split; [ exact D | ]. split; [ split; constructor | ]. split; [ reflexivity | ]. split; reflexivity. }
  step R [ [t2 b2] | ]. apply update_poi_inv in Heqr0 as (I2 & _); auto.
  apply update_prediction_inv in R; [ exact R | ]. split; [ exact I2 | now left ].
Qed.
Lemma did_append_inv t p under t' b : linv t -> P p -> Forall U under ->
  did_append eps gold gold2 polyfit g t p under = Ok (t', b) -> linv t'.
Proof.
  intros I Hp H R. pose proof I as [ ((Dp & Db) & _) _ ]. unfold did_append in R.
  destruct (is_ready t && _); [ now injection R as <- <- | ].
  destruct (negb (is_valid g t)).
  - step R [ bnd | ]. step R [ t1 | ]. injection R as <- <-. apply update_trend_inv in Heqr0; auto. cbn.
    exact (insort_draws P _ _ _ _ _ _ Db Hp Heqr).
  - step R [ on | ]. destruct on.
    + step R [ bnd | ]. step R [ pts | ]. step R [ t1 | ]. injection R as <- <-. apply update_trend_inv in Heqr2; auto; cbn;
        [ exact (insort_draws P _ _ _ _ _ _ Dp Hp Heqr1) | exact (insort_draws P _ _ _ _ _ _ Db Hp Heqr0) ].
    + step R [ [t1 ch] | ]. step R [ t2 | ]. injection R as <- <-. destruct I as [ Ib Ip ].
      apply update_poi_inv in Heqr0 as (I1 & _ & _ & El & Ep); auto. apply update_prediction_inv in Heqr1; auto.
      split; [ exact I1 | ]. unfold lpred. rewrite El, Ep. exact Ip.
Qed.
Lemma drop_len d : forall l : list pt, (length (drop_stale d l) <= length l)%nat /\ (length (drop_stale d l) = length l -> drop_stale d l = l).
Proof.
  induction l as [|p l [ A B ]]; [ auto | ]. cbn [drop_stale].
  destruct (i_contains d (fst p)); [ cbn; split; [ lia | intro; lia ] | ].
  destruct (fst p <? i_start d); [ auto | ]. cbn. split; [ lia | ]. intro E. f_equal. apply B. lia.
Qed.
Lemma stale_same d (l : list pt) : length (remove_stale d l) = length l -> remove_stale d l = l.
Proof.
  unfold remove_stale. rewrite rev_length. intro H. rewrite (proj2 (drop_len d (rev l))); [ apply rev_involutive | now rewrite rev_length ].
Qed.
Lemma tl_begin_inv t d under t' : linv t -> Forall U under -> tl_begin eps gold gold2 polyfit g t d under = Ok t' -> linv t'.
Proof.
  intros I H R. unfold tl_begin in R. destruct (negb _); [ now injection R as <- | ].
  pose proof I as [ ((Dp & Db) & (Dt & De) & L & Up & Lo) Pr ].
  match type of R with (if ?c then _ else _) = _ => destruct c eqn:C end.
  - injection R as <-. rewrite !andb_true_iff, !Nat.eqb_eq in C. destruct C as ((((C1 & C2) & C3) & C4) & C5).
    rewrite (stale_same d _ C1), (stale_same d _ C2), (stale_same d _ C3), (stale_same d _ C4), (stale_same d _ C5).
    destruct t. exact I.
  - apply update_trend_inv in R; auto; cbn; now apply stale_draws.
Qed.
Lemma linv0 : linv tl0.
Proof. split; [ split; [ split; constructor | ]; split; [ split; constructor | ]; auto | now left ]. Qed.
Lemma lrun_inv es : forall t t', linv t -> Forall P (given es) -> Forall U (underneath es) -> lrun t es = Ok t' -> linv t'.
Proof.
  induction es as [|e es IH]; intros t t' I G Un R; [ now injection R as <- | ]. cbn [lrun] in R. step R [ t1 | ].
  unfold given, underneath in *. cbn [flat_map] in G, Un. apply Forall_app in G, Un. destruct G as [ G1 G2 ], Un as [ U1 U2 ].
  apply IH in R; auto. destruct e as [ p under | d under ]; cbn [lstep] in Heqr.
  - step Heqr [ [t2 b] | ]. injection Heqr as <-. apply Forall_inv in G1. exact (did_append_inv t p under t2 b I G1 U1 Heqr0).
  - exact (tl_begin_inv t d under t1 I U1 Heqr).
Qed.
End Inv.

Lemma lrun_line es t : lrun tl0 es = Ok t ->
  incl (t_pts t) (given es) /\ incl (t_bnd t) (given es) /\
  incl (t_tan t) (underneath es) /\ incl (t_ext t) (underneath es) /\
  t_line t = line_fit polyfit (t_pts t) /\
  t_upper t = tolerance_line eps g t true /\ t_lower t = tolerance_line eps g t false.
Proof.
  intro R. apply (lrun_inv (fun p => In p (given es)) (fun p => In p (underneath es))) in R;
    [ | apply linv0 | now apply Forall_forall | now apply Forall_forall ].
  destruct R as [ ((Dp & Db) & (Dt & De) & L & Up & Lo) _ ]. unfold incl. rewrite Forall_forall in Dp, Db, Dt, De. auto 8.
Qed.
Lemma lrun_pred es t : lrun tl0 es = Ok t ->
  t_pred t = pred0 \/ exists l h, t_line t = Some l /\ hist eps gold gold2 g (fst l) (t_pred t) h /\
    forall p, In p h -> snd p <> TInt -> In (fst p) (underneath es).
Proof.
  intro R. apply (lrun_inv (fun _ => True) (fun p => In p (underneath es))) in R;
    [ apply R | apply linv0 | now apply Forall_forall | now apply Forall_forall ].
Qed.
End LineInv.
Lemma lrun_success {T} {N : Num T} (eps gold gold2 : T) polyfit (g : cfg T) es t :
  lrun eps gold gold2 polyfit g tl0 es = Ok t -> q_ok (t_pred t) = true ->
  exists l h, t_line t = Some l /\ ordered_success eps gold gold2 g (fst l) (t_pred t) h /\ q_failed (t_pred t) = false /\
    forall p, In p h -> snd p <> TInt -> In (fst p) (underneath es).
Proof.
  intros R O. destruct (lrun_pred _ _ _ _ _ _ _ R) as [ E | (l & h & El & H & D) ]; [ rewrite E in O; discriminate | ].
  exists l, h. split; [ exact El | ]. split; [ now apply hist_success | ]. split; [ | exact D ].
  destruct (q_failed (t_pred t)) eqn:F; [ | reflexivity ]. destruct (hist_excl _ _ _ _ _ _ _ H). auto.
Qed.
