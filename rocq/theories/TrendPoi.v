(** The points a prediction is made from (trend.py:711-718). *)
From Coq Require Import List ZArith QArith Qcanon Bool Lia Sorting.Sorted Permutation.
From Verif Require Import Base Num NumFacts Interval Points PointsDec Trend TrendGeo.
Import ListNotations.
Open Scope Qc_scope.

Definition tag (p : qpt * ptype) : tpt xq := (Fin (fst (fst p)), Fin (snd (fst p)), snd p).
Definition rank (t : ptype) : nat := match t with TExt => 0 | TTan => 1 | TInt => 2 end.
(** by position; at one position extremas, then tangents, then intersections *)
Definition poi_le (a b : qpt * ptype) : Prop :=
  fst (fst a) < fst (fst b) \/ (fst (fst a) = fst (fst b) /\ (rank (snd a) <= rank (snd b))%nat).
(** the side of the line a point is on *)
Definition past (up : bool) (l : qpt * qpt) (p : qpt) : Prop :=
  forall y, on_seg l (fst p, y) -> if up then y < snd p else snd p < y.

Fixpoint put (p : qpt * ptype) (l : list (qpt * ptype)) : list (qpt * ptype) :=
  match l with [] => [p] | q :: l' => if Qcltb (fst (fst p)) (fst (fst q)) then p :: q :: l' else q :: put p l' end.
Lemma put_is p l : ins_sorted (tag p) (map tag l) = map tag (put p l).
Proof.
  induction l as [|q l IH]; [reflexivity|]. cbn [map ins_sorted put]. unfold tx, tag at 1 2. cbn [fst]. change (n_ltb (Fin (fst (fst p))) (Fin (fst (fst q)))) with (Qcltb (fst (fst p)) (fst (fst q))).
  destruct (Qcltb _ _); [reflexivity|]. cbn [map]. f_equal. exact IH.
Qed.
Lemma put_perm p l : Permutation (put p l) (p :: l).
Proof. induction l as [|q l IH]; [reflexivity|]. cbn [put]. destruct (Qcltb _ _); [reflexivity|]. rewrite IH. apply perm_swap. Qed.
Lemma put_sorted p l : StronglySorted poi_le l -> Forall (fun q => (rank (snd q) <= rank (snd p))%nat) l -> StronglySorted poi_le (put p l).
Proof.
  induction l as [|q l IH]; intros S F; cbn [put]; [repeat constructor|]. pose proof S as S0. apply StronglySorted_inv in S. destruct S as [S Q]. inversion F as [|? ? R F']; subst.
  destruct (Qcltb (fst (fst p)) (fst (fst q))) eqn:E.
  - apply Qcltb_true in E. constructor; [exact S0|]. constructor; [left; exact E|]. eapply Forall_impl; [|exact Q]. intros a [L|[L _]]; left; [eapply Qclt_trans; eassumption|rewrite <- L; exact E].
  - constructor; [apply IH; assumption|]. rewrite Forall_forall. intros a I. apply (Permutation_in _ (put_perm p l)) in I. destruct I as [<-|I]; [|rewrite Forall_forall in Q; auto].
    apply Qcltb_false in E. destruct (Qc_eq_dec (fst (fst q)) (fst (fst p))) as [X|X]; [right; auto|left]. apply Qcle_lt_or_eq in E. destruct E as [E|E]; [exact E|congruence].
Qed.
Lemma sort_is (ls acc : list (qpt * ptype)) : StronglySorted poi_le acc -> (forall a b, In a acc -> In b ls -> (rank (snd a) <= rank (snd b))%nat) ->
  StronglySorted (fun a b => (rank (snd a) <= rank (snd b))%nat) ls ->
  exists qs, fold_left (fun a p => ins_sorted p a) (map tag ls) (map tag acc) = map tag qs /\ StronglySorted poi_le qs /\ Permutation qs (acc ++ ls).
Proof.
  revert acc. induction ls as [|p ls IH]; intros acc S A R.
  - exists acc. rewrite app_nil_r. split; [reflexivity|]. split; [exact S|reflexivity].
  - cbn [map fold_left]. rewrite put_is. apply StronglySorted_inv in R. destruct R as [R RP]. rewrite Forall_forall in RP.
    destruct (IH (put p acc)) as (qs & E & SQ & PQ).
    + apply put_sorted; [exact S|]. rewrite Forall_forall. intros q I. apply A; [exact I|left; reflexivity].
    + intros a b Ia Ib. apply (Permutation_in _ (put_perm p acc)) in Ia. destruct Ia as [<-|Ia]; [auto|]. apply A; [exact Ia|right; exact Ib].
    + exact R.
    + exists qs. split; [exact E|]. split; [exact SQ|]. rewrite PQ, put_perm. cbn [app]. apply Permutation_middle.
Qed.

Lemma beyond_is (g : cfg xq) t l es : t_line t = Some (fs l) -> fst (fst l) <> fst (snd l) ->
  exists us, beyond g t (map fp es) = Ok (map fp us) /\ forall p, In p us <-> In p es /\ past (g_upper g) l p.
Proof.
  intros TL V. induction es as [|e es (us & E & IH)].
  - exists []. split; [reflexivity|]. intros p. cbn. tauto.
  - cbn [map beyond]. unfold tl_y. rewrite TL. cbn [need rbind]. unfold fp at 1. cbn [fst]. rewrite (seg_y_slope l (fst e) V). cbn [need rbind].
    rewrite E. cbn [rbind]. unfold fp at 1 2. cbn [snd]. set (y := snd (fst l) + (snd (snd l) - snd (fst l)) / (fst (snd l) - fst (fst l)) * (fst e - fst (fst l))).
    destruct (line_y_on l (fst e)) as (o & Eo & Ho); [intros P; apply V; congruence|]. rewrite (seg_y_slope l (fst e) V) in Eo. injection Eo as <-. destruct Ho as (y0 & Ey & On & Un). injection Ey as <-. fold y in On, Un. specialize (Un V).
    assert (D : (if g_upper g then n_gtb (Fin (snd e)) (Fin y) else n_ltb (Fin (snd e)) (Fin y)) = true <-> past (g_upper g) l e).
    { unfold past. destruct (g_upper g).
      - change (Qcltb y (snd e) = true <-> forall y', on_seg l (fst e, y') -> y' < snd e). split.
        + intros L y' O'. rewrite (Un y' O'). apply Qcltb_true. exact L.
        + intros L. apply Qcltb_true. apply L. exact On.
      - change (Qcltb (snd e) y = true <-> forall y', on_seg l (fst e, y') -> snd e < y'). split.
        + intros L y' O'. rewrite (Un y' O'). apply Qcltb_true. exact L.
        + intros L. apply Qcltb_true. apply L. exact On. }
    match goal with |- context [if ?c then fp e :: _ else _] => set (b := c) end. assert (B : b = true <-> past (g_upper g) l e) by exact D. clearbody b.
    destruct b.
    + exists (e :: us). split; [reflexivity|]. intros p. cbn [In]. rewrite IH. assert (past (g_upper g) l e) by tauto. split; [intros [<-|?]; tauto|tauto].
    + exists us. split; [reflexivity|]. intros p. cbn [In]. rewrite IH. assert (~ past (g_upper g) l e) by (intros H; apply B in H; discriminate). split; [tauto|]. intros [[<-|?] ?]; tauto.
Qed.

Lemma ranked (us ts cs : list qpt) : StronglySorted (fun a b : qpt * ptype => (rank (snd a) <= rank (snd b))%nat)
  (map (fun p => (p, TExt)) us ++ map (fun p => (p, TTan)) ts ++ map (fun p => (p, TInt)) cs).
Proof.
  assert (W : forall ty (l : list qpt) (r : list (qpt * ptype)), StronglySorted (fun a b : qpt * ptype => (rank (snd a) <= rank (snd b))%nat) r -> Forall (fun b => (rank ty <= rank (snd b))%nat) r ->
    StronglySorted (fun a b : qpt * ptype => (rank (snd a) <= rank (snd b))%nat) (map (fun p => (p, ty)) l ++ r)).
  { intros ty l r S F. induction l as [|p l IH]; [exact S|]. cbn [map app]. constructor; [exact IH|]. apply Forall_app. split; [|exact F]. apply Forall_map. apply Forall_forall. intros ? _. cbn. lia. }
  apply W; [apply W; [rewrite <- (app_nil_r (map _ cs)); apply W; constructor|]|].
  - apply Forall_map, Forall_forall. intros ? _. cbn. lia.
  - apply Forall_app. split; apply Forall_map, Forall_forall; intros ? _; cbn; lia.
Qed.

Lemma poi_is (g : cfg xq) t l es ts cs : t_line t = Some (fs l) -> fst (fst l) <> fst (snd l) -> t_ext t = map fp es -> t_tan t = map fp ts -> t_cross t = map fp cs ->
  exists qs us, poi_points g t = Ok (map tag qs) /\ StronglySorted poi_le qs /\
    Permutation qs (map (fun p => (p, TExt)) us ++ map (fun p => (p, TTan)) ts ++ map (fun p => (p, TInt)) cs) /\
    forall p, In p us <-> In p es /\ past (g_upper g) l p.
Proof.
  intros TL V E1 E2 E3. destruct (beyond_is g t l es TL V) as (us & B & IU). unfold poi_points. rewrite E1, E2, E3, B. cbn [rbind]. unfold sort_pts.
  destruct (sort_is _ [] (SSorted_nil _) (fun a b F => match F with end) (ranked us ts cs)) as (qs & Q & S & P). cbn [map app] in Q, P. exists qs, us. split; [|auto].
  f_equal. rewrite <- Q. f_equal. rewrite !map_app, !map_map. reflexivity.
Qed.
