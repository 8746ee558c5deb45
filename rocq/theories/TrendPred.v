(** The prediction of a TrendLine: what a phase says about the points seen.
    For every number type. *)
From Coq Require Import List ZArith Bool Lia.
From Verif Require Import Base Num Interval Points Trend.
Import ListNotations.
Open Scope num_scope.
Open Scope bool_scope.

Section Pred.
Context {T : Type} {N : Num T}.
Variables (eps gold gold2 : T) (g : cfg T).
Notation tpt := (tpt T).
Notation pt := (pt T).
Notation pred := (pred T).

Definition kind (k : ptype) (p : tpt) : Prop := snd p = k.
Definition not_int (p : tpt) : Prop := snd p <> TInt.
Fixpoint tangents (l : list tpt) : Z :=
  match l with [] => 0%Z | p :: l => ((match snd p with TTan => 1 | _ => 0 end) + tangents l)%Z end.
(** the last extremum of a list *)
Fixpoint last_ext (l : list tpt) : option pt :=
  match l with
  | [] => None
  | p :: l => match last_ext l with Some e => Some e | None => match snd p with TExt => Some (fst p) | _ => None end end
  end.

(** The limit on the x of a retest after the intersection i. *)
Definition retest_limit (og : pt) (i : tpt) (x : T) : Prop :=
  exists d, n_div (tx i - fst og) gold = Ok d /\ x = tx i + d.
(** The level that a prediction aims at. *)
Definition target (i : tpt) (ex : pt) : T := snd (fst i) + (snd ex - snd (fst i)) * gold2.
Definition confirms (og ex : pt) (e : tpt) : Prop :=
  snd e = TExt /\ exists cy, seg_y (og, ex) (tx e) = Ok (Some cy) /\
    (if g_upper g then snd (fst e) >=? tol_max eps g cy else snd (fst e) <=? tol_min eps g cy) = true.
Definition fulfils (i : tpt) (ex : pt) (e : tpt) : Prop :=
  snd e = TExt /\
  (if g_upper g then snd (fst e) >=? tol_min eps g (target i ex) else snd (fst e) <=? tol_max eps g (target i ex)) = true.

(** What phases 1 to 4 say. *)
Definition crossed (og : pt) (h a : list tpt) (i : tpt) (r : list tpt) : Prop :=
  h = a ++ i :: r /\ kind TInt i /\ Forall not_int a /\ (g_minp g <= tangents a)%Z /\ Forall not_int r.
Definition retested (og : pt) (i : tpt) (r b : list tpt) (t : tpt) (c : list tpt) (ex : pt) : Prop :=
  r = b ++ t :: c /\ kind TTan t /\ Forall (kind TExt) c /\ last_ext b = Some ex /\
  exists x, retest_limit og i x /\ (tx t >? x) = false.

Definition hist (og : pt) (q : pred) (h : list tpt) : Prop :=
  q_failed q = true /\ q_ok q = false \/
  q_failed q = false /\ q_origin q = Some og /\
  match q_phase q with
  | O => q_ok q = false /\ Forall not_int h /\ q_tan q = tangents h /\ q_seen q = None
  | S n =>
      exists a i r, crossed og h a i r /\ q_inter q = Some (fst i) /\
        (exists x, retest_limit og i x /\ q_rxmax q = Some x) /\ q_seen q = last_ext r /\
        match n with
        | O => q_ok q = false /\ Forall (kind TExt) r
        | S n =>
            exists b t c ex, retested og i r b t c ex /\ q_retest q = Some (fst t) /\ q_extrema q = Some ex /\
              q_conf q = Some (og, ex) /\ q_y q = Some (target i ex) /\
              q_ymin q = Some (tol_min eps g (target i ex)) /\ q_ymax q = Some (tol_max eps g (target i ex)) /\
              q_xmax q = Some (fst ex + (fst ex - fst og) * gold) /\
              match n with
              | O => q_ok q = false
              | S O => q_ok q = false /\ Exists (confirms og ex) c
              | S (S O) => q_ok q = true /\ Exists (confirms og ex) c /\
                           exists c' e, c = c' ++ [e] /\ fulfils i ex e /\ q_okpt q = Some (fst e)
              | _ => False
              end
        end
  end.

Lemma tangents_app a b : tangents (a ++ b) = (tangents a + tangents b)%Z.
Proof. induction a as [|p a IH]; [ reflexivity | ]. cbn. rewrite IH. lia. Qed.
Lemma last_ext_snoc l e : snd e = TExt -> last_ext (l ++ [e]) = Some (fst e).
Proof. intro H. induction l as [|p l IH]; cbn; [ now rewrite H | now rewrite IH ]. Qed.
Lemma last_ext_snoc_other l e : snd e <> TExt -> last_ext (l ++ [e]) = last_ext l.
Proof.
  intro H. induction l as [|p l IH]; cbn; [ destruct (snd e); congruence | ]. rewrite IH. reflexivity.
Qed.
Lemma ext_not_int l : Forall (kind TExt) l -> Forall not_int l.
Proof. apply Forall_impl. unfold kind, not_int. intros p ->. discriminate. Qed.
Lemma Forall_snoc {A} (P : A -> Prop) l x : Forall P l -> P x -> Forall P (l ++ [x]).
Proof. intros H K. apply Forall_app. auto. Qed.

Definition skipped (q : pred) (p : tpt) : bool := match q_done q with Some d => tx p <? d | None => false end.

(** update_prediction_target, when there is an extremum *)
Definition aim (og : pt) (q : pred) (e i : pt) : pred :=
  let y := snd i + (snd e - snd i) * gold2 in
  mkP (q_phase q) (q_origin q) (q_inter q) (Some e) (q_retest q) (q_rxmax q) (Some (og, e))
    (Some y) (Some (tol_min eps g y)) (Some (tol_max eps g y)) (Some (fst e)) (Some (fst e + (fst e - fst og) * gold))
    (q_failed q) (q_ok q) (q_okpt q) (y >? n_zero) (q_seen q) (q_done q) (q_tan q).
Lemma target_ok og q e i : q_origin q = Some og -> q_inter q = Some i -> q_seen q = Some e ->
  set_target eps gold gold2 g q = Ok (Some (aim og q e i)).
Proof. intros A B C. unfold set_target. rewrite B, C, A. cbn [need rbind]. unfold aim. now rewrite ?A, ?B, ?C. Qed.

(** One point: it is passed over, or the loop had stopped, or it is added to
    what was seen. *)
Lemma step_hist og q h p q' stop : hist og q h -> predict_one eps gold gold2 g q p = Ok (q', stop) ->
  (q' = q /\ (skipped q p = true \/ q_ok q || q_failed q = true)) \/ hist og q' (h ++ [p]).
Proof.
  intros H R. destruct p as [[px py] ty]. unfold predict_one in R.
  change (match q_done q with Some d => px <? d | None => false end) with (skipped q (px, py, ty)) in R.
  destruct (skipped q (px, py, ty)) eqn:Sk; [ injection R as <- <-; auto | ].
  destruct (q_ok q || q_failed q) eqn:Fin; [ injection R as <- <-; auto | ].
  right. apply orb_false_iff in Fin. destruct Fin as [ Nok Nf ].
  destruct H as [ [ F _ ] | (_ & Og & H) ]; [ congruence | ].
  destruct (q_phase q) as [|n] eqn:Ph.
  - (* no intersection yet *)
    cbn [Nat.eqb] in R. destruct H as (Ok0 & Ni & Tn & Se). destruct ty.
    + injection R as <- <-. right. rewrite Ph. split; [ exact Nf | ]. split; [ exact Og | ]. split; [ exact Ok0 | ]. split; [ | split; [ | exact Se ] ].
      * apply Forall_snoc; [ exact Ni | discriminate ].
      * rewrite tangents_app, Tn. cbn. lia.
    + injection R as <- <-. right. cbn. rewrite Ph. split; [ exact Nf | ]. split; [ exact Og | ]. split; [ exact Ok0 | ]. split; [ | split; [ | exact Se ] ].
      * apply Forall_snoc; [ exact Ni | discriminate ].
      * rewrite tangents_app, Tn. cbn. lia.
    + destruct (q_tan q <? g_minp g)%Z eqn:Cn.
      * injection R as <- <-. left. cbn. auto.
      * apply Z.ltb_ge in Cn. rewrite Og in R. cbn [need rbind] in R.
        destruct (n_div (px - fst og) gold) as [ d | ] eqn:D; [ | discriminate ]. cbn [rbind] in R.
        injection R as <- <-. right. cbn. split; [ exact Nf | ]. split; [ exact Og | ].
        exists h, (px, py, TInt), [].
        split; [ | split; [ reflexivity | split; [ | split; [ exact Se | split; [ exact Ok0 | constructor ] ] ] ] ].
        -- unfold crossed. split; [ reflexivity | ]. split; [ reflexivity | ]. split; [ exact Ni | ]. split; [ lia | constructor ].
        -- exists (px + d). split; [ exists d; auto | reflexivity ].
  - change (S n =? 0)%nat with false in R. cbn iota in R.
    destruct H as (a & i & r & (Hh & Ki & Na & Ct & Nr) & In & (rx & Rl & Rx) & Se & H).
    destruct ty.
    + (* an extremum *)
      set (e := (px, py, TExt)) in *. set (q1 := set_seen q (px, py)) in *.
      assert (Cr : crossed og (h ++ [e]) a i (r ++ [e])).
      { split; [ rewrite Hh, <- app_assoc; reflexivity | ]. split; [ exact Ki | ]. split; [ exact Na | ]. split; [ exact Ct | ].
        apply Forall_snoc; [ exact Nr | discriminate ]. }
      assert (Le : last_ext (r ++ [e]) = Some (px, py)) by now apply last_ext_snoc.
      change (q_phase q1) with (q_phase q) in R. rewrite Ph in R.
      destruct n as [|n].
      * (* after the intersection: the target moves *)
        cbn [Nat.eqb] in R. destruct H as (Ok0 & Rx1).
        rewrite (target_ok og q1 (px, py) (fst i)) in R by (first [ exact Og | exact In | reflexivity ]).
        cbn [rbind q_phase aim] in R. change (q_phase q1) with (q_phase q) in R. rewrite Ph in R. cbn [Nat.eqb rbind q_phase aim] in R.
        change (q_phase q1) with (q_phase q) in R. rewrite Ph in R. cbn [Nat.eqb] in R. injection R as <- <-.
        right. cbn [q_failed q_origin q_phase q_inter q_rxmax q_seen q_ok aim].
        change (q_failed q1) with (q_failed q). change (q_origin q1) with (q_origin q). change (q_phase q1) with (q_phase q).
        rewrite Ph. split; [ exact Nf | ]. split; [ exact Og | ].
        exists a, i, (r ++ [e]). split; [ exact Cr | ]. split; [ exact In | ]. split; [ exists rx; auto | ].
        split; [ symmetry; exact Le | ]. split; [ exact Ok0 | ]. apply Forall_snoc; [ exact Rx1 | reflexivity ].
      * destruct H as (b & t & c & ex & (Hr & Kt & Kc & Lb & Lim) & Rt & Ex & Cf & Qy & Ymin & Ymax & Xm & H).
        assert (Re : retested og i (r ++ [e]) b t (c ++ [e]) ex).
        { split; [ rewrite Hr, <- app_assoc; reflexivity | ]. split; [ exact Kt | ]. split; [ apply Forall_snoc; [ exact Kc | reflexivity ] | ]. split; [ exact Lb | exact Lim ]. }
        assert (Base : forall q2, q_failed q2 = false -> q_origin q2 = Some og -> q_inter q2 = Some (fst i) -> q_rxmax q2 = Some rx ->
          q_seen q2 = Some (px, py) -> q_retest q2 = Some (fst t) -> q_extrema q2 = Some ex -> q_conf q2 = Some (og, ex) ->
          q_y q2 = Some (target i ex) -> q_ymin q2 = Some (tol_min eps g (target i ex)) -> q_ymax q2 = Some (tol_max eps g (target i ex)) ->
          q_xmax q2 = Some (fst ex + (fst ex - fst og) * gold) ->
          (q_phase q2 = 2 /\ q_ok q2 = false \/ q_phase q2 = 3 /\ q_ok q2 = false /\ Exists (confirms og ex) (c ++ [e]) \/
           q_phase q2 = 4 /\ q_ok q2 = true /\ Exists (confirms og ex) (c ++ [e]) /\ fulfils i ex e /\ q_okpt q2 = Some (fst e))%nat ->
          hist og q2 (h ++ [e])).
        { intros q2 E1 E2 E3 E4 E5 E6 E7 E8 E9 E10 E11 E12 C. right. split; [ exact E1 | ]. split; [ exact E2 | ].
          destruct C as [ (P & C) | [ (P & C) | (P & C1 & C2 & C3 & C4) ] ]; rewrite P; exists a, i, (r ++ [e]);
            (split; [ exact Cr | ]; split; [ exact E3 | ]; split; [ exists rx; auto | ]; split; [ now rewrite Le | ];
             exists b, t, (c ++ [e]), ex; split; [ exact Re | ];
             split; [ exact E6 | ]; split; [ exact E7 | ]; split; [ exact E8 | ]; split; [ exact E9 | ];
             split; [ exact E10 | ]; split; [ exact E11 | ]; split; [ exact E12 | ]).
          - exact C.
          - exact C.
          - split; [ exact C1 | ]. split; [ exact C2 | ]. exists c, e. auto. }
        (* the check for fulfilment, from phase 3 *)
        assert (Final : forall q2, q_failed q2 = false -> q_phase q2 = 3%nat -> q_origin q2 = Some og -> q_inter q2 = Some (fst i) -> q_rxmax q2 = Some rx ->
          q_seen q2 = Some (px, py) -> q_retest q2 = Some (fst t) -> q_extrema q2 = Some ex -> q_conf q2 = Some (og, ex) ->
          q_y q2 = Some (target i ex) -> q_ymin q2 = Some (tol_min eps g (target i ex)) -> q_ymax q2 = Some (tol_max eps g (target i ex)) ->
          q_xmax q2 = Some (fst ex + (fst ex - fst og) * gold) -> q_ok q2 = false -> Exists (confirms og ex) (c ++ [e]) ->
          (let! lo := need (q_ymin q2) in
           let! hi := need (q_ymax q2) in
           if (g_upper g && (py >=? lo)) || (negb (g_upper g) && (py <=? hi)) then Ok (set_ok q2 (px, py), true)
           else let! xm := need (q_xmax q2) in
                if px >=? xm then Ok (set_failed q2, true) else Ok (q2, false)) = Ok (q', stop) ->
          hist og q' (h ++ [e])).
        { intros q2 E1 P E2 E3 E4 E5 E6 E7 E8 E9 E10 E11 E12 O1 C R2. rewrite E10, E11, E12 in R2. cbn [need rbind] in R2.
          destruct ((g_upper g && (py >=? tol_min eps g (target i ex))) || (negb (g_upper g) && (py <=? tol_max eps g (target i ex)))) eqn:Fu.
          - injection R2 as <- <-. apply Base; auto. right. right. cbn. split; [ reflexivity | ]. split; [ reflexivity | ].
            split; [ exact C | ]. split; [ | reflexivity ]. split; [ reflexivity | ]. cbn.
            destruct (g_upper g); cbn in Fu; [ now rewrite orb_false_r in Fu | exact Fu ].
          - destruct (px >=? _).
            + injection R2 as <- <-. left. split; [ reflexivity | exact O1 ].
            + injection R2 as <- <-. apply Base; auto. }
        cbn [Nat.eqb rbind] in R. destruct n as [|[|n]].
        -- (* phase 2 *)
           change (q_phase q1) with (q_phase q) in R. rewrite Ph in R. cbn [Nat.eqb] in R.
           change (q_conf q1) with (q_conf q) in R. rewrite Cf in R. cbn [need rbind] in R.
           destruct (seg_y (og, ex) px) as [ o | ] eqn:Sy; [ | discriminate ]. cbn [rbind] in R.
           destruct o as [ cy | ]; [ | discriminate ]. cbn [need rbind] in R.
           destruct ((g_upper g && (py >=? tol_max eps g cy)) || (negb (g_upper g) && (py <=? tol_min eps g cy))) eqn:Co.
           ++ cbn [q_phase set_phase Nat.eqb] in R. revert R. apply Final; auto.
              apply Exists_app. right. constructor. split; [ reflexivity | ]. exists cy. split; [ exact Sy | ].
              cbn. destruct (g_upper g); cbn in Co; [ now rewrite orb_false_r in Co | exact Co ].
           ++ change (q_phase q1) with (q_phase q) in R. rewrite Ph in R. cbn [Nat.eqb] in R. injection R as <- <-.
              apply Base; auto.
        -- (* phase 3 *)
           destruct H as (O1 & Ec). change (q_phase q1) with (q_phase q) in R. rewrite Ph in R. cbn [Nat.eqb rbind] in R.
           change (q_phase q1) with (q_phase q) in R. rewrite Ph in R. cbn [Nat.eqb] in R.
           revert R. apply Final; auto. apply Exists_app. now left.
        -- destruct n; [ destruct H as (O1 & _); congruence | contradiction ].
    + (* a tangent *)
      rewrite Rx in R. cbn [need rbind] in R. set (e := (px, py, TTan)) in *.
      destruct (px >? rx) eqn:Lt; [ injection R as <- <-; left; split; [ reflexivity | exact Nok ] | ].
      destruct (q_seen q) as [ ex | ] eqn:Sq.
      2: { unfold set_target in R. rewrite In, Sq in R. cbn [rbind] in R. injection R as <- <-. left. split; [ reflexivity | exact Nok ]. }
      rewrite (target_ok og q ex (fst i)) in R by assumption. cbn [rbind] in R. injection R as <- <-.
      right. cbn [set_retest aim q_failed q_origin q_phase q_inter q_rxmax q_seen q_ok q_retest q_extrema q_conf q_y q_ymin q_ymax q_xmax].
      split; [ exact Nf | ]. split; [ exact Og | ]. exists a, i, (r ++ [e]).
      split. { split; [ rewrite Hh, <- app_assoc; reflexivity | ]. split; [ exact Ki | ]. split; [ exact Na | ]. split; [ exact Ct | ].
        apply Forall_snoc; [ exact Nr | discriminate ]. }
      split; [ exact In | ]. split; [ exists rx; auto | ]. split; [ rewrite last_ext_snoc_other by discriminate; now rewrite Sq | ].
      exists r, e, [], ex. split.
      { split; [ reflexivity | ]. split; [ reflexivity | ]. split; [ constructor | ]. split; [ now symmetry | ]. exists rx. auto. }
      auto 10.
    + injection R as <- <-. left. split; [ reflexivity | exact Nok ].
Qed.

(** [sub a b]: a is b with some elements left out. *)
Inductive sub {A} : list A -> list A -> Prop :=
| sub_nil : sub [] []
| sub_skip a b x : sub a b -> sub a (x :: b)
| sub_take a b x : sub a b -> sub (x :: a) (x :: b).
Lemma sub_none {A} (l : list A) : sub [] l.
Proof. induction l; constructor; auto. Qed.

Lemma loop_hist og ps : forall q h q', hist og q h -> predict_loop eps gold gold2 g q ps = Ok q' ->
  exists k, sub k ps /\ hist og q' (h ++ k).
Proof.
  induction ps as [|p ps IH]; intros q h q' H R.
  - injection R as <-. exists []. rewrite app_nil_r. split; [ constructor | exact H ].
  - cbn [predict_loop] in R. destruct (predict_one eps gold gold2 g q p) as [ [q1 st] | ] eqn:E; [ | discriminate ]. cbn [rbind] in R.
    destruct (step_hist og q h p q1 st H E) as [ [ -> _ ] | H1 ].
    + destruct st.
      * injection R as <-. exists []. rewrite app_nil_r. split; [ apply sub_none | exact H ].
      * destruct (IH q h q' H R) as (k & K & Hk). exists k. split; [ now constructor | exact Hk ].
    + destruct st.
      * injection R as <-. exists [p]. split; [ constructor; apply sub_none | exact H1 ].
      * destruct (IH q1 _ q' H1 R) as (k & K & Hk). exists (p :: k). split; [ now constructor | ].
        rewrite <- app_assoc in Hk. exact Hk.
Qed.
(** With nothing processed before, no point is left out of the front. *)
Lemma loop_done ps : forall q q', predict_loop eps gold gold2 g q ps = Ok q' -> q_done q' = q_done q.
Proof.
  assert (D : forall q p q' st, predict_one eps gold gold2 g q p = Ok (q', st) -> q_done q' = q_done q).
  { intros q [[px py] ty] q' st. unfold predict_one.
    destruct (match q_done q with Some d => px <? d | None => false end); [ now intros [= <- <-] | ].
    destruct (q_ok q || q_failed q); [ now intros [= <- <-] | ].
    assert (St : forall q1 o, set_target eps gold gold2 g q1 = Ok o -> match o with Some q2 => q_done q2 = q_done q1 /\ q_phase q2 = q_phase q1 | None => True end).
    { intros q1 o. unfold set_target. destruct (q_inter q1); [ | discriminate ]. destruct (q_seen q1); [ | now intros [= <-] ].
      destruct (q_origin q1); [ | discriminate ]. cbn. intros [= <-]. auto. }
    destruct (q_phase q =? 0)%nat.
    - destruct ty; [ now intros [= <- <-] | now intros [= <- <-] | ].
      destruct (_ <? _)%Z; [ now intros [= <- <-] | ]. destruct (need _); [ | discriminate ]. cbn.
      destruct (n_div _ _); [ | discriminate ]. now intros [= <- <-].
    - destruct ty; [ | | now intros [= <- ?] ].
      + set (q1 := set_seen q (px, py)). intro R.
        destruct (if (q_phase q1 =? 1)%nat then set_target eps gold gold2 g q1 else Ok (Some q1)) as [ o | ] eqn:E; [ | discriminate ].
        cbn [rbind] in R. destruct o as [ q2 | ]; [ | injection R as <- <-; reflexivity ].
        assert (D2 : q_done q2 = q_done q).
        { destruct (q_phase q1 =? 1)%nat; [ apply St in E; destruct E as [ -> _ ]; reflexivity | injection E as <-; reflexivity ]. }
        clear E. 
        match type of R with rbind ?X _ = _ => destruct X as [ q3 | ] eqn:E3; [ | discriminate ] end. cbn [rbind] in R.
        assert (D3 : q_done q3 = q_done q).
        { destruct (q_phase q2 =? 2)%nat; [ | injection E3 as <-; exact D2 ].
          destruct (need (q_conf q2)); [ | discriminate ]. cbn [rbind] in E3. destruct (seg_y _ _); [ | discriminate ]. cbn [rbind] in E3.
          destruct (need _); [ | discriminate ]. cbn [rbind] in E3. match type of E3 with context [ if ?c then _ else _ ] => destruct c end; injection E3 as <-; exact D2. }
        destruct (q_phase q3 =? 3)%nat; [ | injection R as <- <-; exact D3 ].
        destruct (need (q_ymin q3)); [ | discriminate ]. cbn [rbind] in R. destruct (need (q_ymax q3)); [ | discriminate ]. cbn [rbind] in R.
        match type of R with (if ?c then _ else _) = _ => destruct c end; [ injection R as <- <-; exact D3 | ].
        destruct (need (q_xmax q3)); [ | discriminate ]. cbn [rbind] in R.
        match type of R with (if ?c then _ else _) = _ => destruct c end; injection R as <- <-; exact D3.
      + destruct (need _); [ | discriminate ]. cbn [rbind]. destruct (_ >? _); [ now intros [= <- ?] | ].
        destruct (set_target _ _ _ _ _) as [ o | ] eqn:E; [ | discriminate ]. cbn [rbind]. apply St in E.
        destruct o; [ | now intros [= <- ?] ]. intros [= <- <-]. apply E. }
  induction ps as [|p ps IH]; intros q q' R; [ now injection R as <- | ]. cbn [predict_loop] in R.
  destruct (predict_one eps gold gold2 g q p) as [ [q1 st] | ] eqn:E; [ | discriminate ]. cbn [rbind] in R. apply D in E.
  destruct st; [ injection R as <-; exact E | rewrite <- E; auto ].
Qed.
(** prefixes *)
Lemma loop_hist_fresh og ps : forall q h q', q_done q = None -> hist og q h -> predict_loop eps gold gold2 g q ps = Ok q' ->
  exists k r, ps = k ++ r /\ hist og q' (h ++ k).
Proof.
  induction ps as [|p ps IH]; intros q h q' D H R.
  - injection R as <-. exists [], []. split; [ reflexivity | now rewrite app_nil_r ].
  - cbn [predict_loop] in R. destruct (predict_one eps gold gold2 g q p) as [ [q1 st] | ] eqn:E; [ | discriminate ]. cbn [rbind] in R.
    pose proof (loop_done [p] q q1) as D1. cbn [predict_loop] in D1. rewrite E in D1. cbn [rbind] in D1.
    assert (D2 : q_done q1 = None) by (rewrite D1; [ exact D | destruct st; reflexivity ]). clear D1.
    destruct (step_hist og q h p q1 st H E) as [ [ -> C ] | H1 ].
    + destruct C as [ C | C ]; [ unfold skipped in C; rewrite D in C; discriminate | ].
      exists [], (p :: ps). split; [ reflexivity | rewrite app_nil_r ].
      assert (st = true).
      { destruct p as [[px py] ty]. unfold predict_one in E. rewrite D, C in E. now injection E as <-. }
      subst st. injection R as <-. exact H.
    + destruct st.
      * injection R as <-. exists [p], ps. auto.
      * destruct (IH q1 _ q' D2 H1 R) as (k & r & K & Hk). exists (p :: k), r. split; [ cbn; now rewrite K | ].
        rewrite <- app_assoc in Hk. exact Hk.
Qed.

Lemma hist_failed og q h : q_ok q = false -> q_failed q = true -> hist og q h.
Proof. left. auto. Qed.
Lemma hist_done og q h x : hist og q h -> hist og (set_done q x) h.
Proof. intro H. exact H. Qed.
Lemma hist_fail og q h : q_ok q = false -> hist og (set_failed q) h.
Proof. left. auto. Qed.
Lemma hist_origin og q h : hist og q h -> hist og (set_origin q (Some og)) h.
Proof. intros [ F | (F & O & H) ]; [ left; exact F | right ]. split; [ exact F | ]. split; [ reflexivity | exact H ]. Qed.
Lemma hist_start og : hist og (set_origin pred0 (Some og)) [].
Proof. right. cbn. auto 6. Qed.
Lemma hist_excl og q h : hist og q h -> ~ (q_ok q = true /\ q_failed q = true).
Proof. intros [ [ _ A ] | [ A _ ] ] [ B C ]; congruence. Qed.

Lemma timeouts_hist og q h u q' : hist og q h -> q_ok q = false -> 
  (let! q := if (2 <=? q_phase q)%nat then let! xm := need (q_xmax q) in Ok (if fst u >=? xm then set_failed q else q) else Ok q in
   if (q_phase q =? 1)%nat then let! rx := need (q_rxmax q) in Ok (if fst (u : pt) >=? rx then set_failed q else q) else Ok q) = Ok q' ->
  hist og q' h.
Proof.
  intros H O R.
  match type of R with rbind ?X _ = _ => destruct X as [ q3 | ] eqn:E3; [ | discriminate ] end. cbn [rbind] in R.
  assert (H3 : hist og q3 h /\ q_ok q3 = false).
  { destruct (2 <=? q_phase q)%nat; [ | injection E3 as <-; auto ].
    destruct (need (q_xmax q)); [ | discriminate ]. cbn [rbind] in E3. match type of E3 with context [ if ?c then _ else _ ] => destruct c end; injection E3 as <-; auto.
    split; [ now apply hist_fail | exact O ]. }
  destruct H3 as [ H3 O3 ]. destruct (q_phase q3 =? 1)%nat; [ | injection R as <-; exact H3 ].
  destruct (need (q_rxmax q3)); [ | discriminate ]. cbn [rbind] in R. match type of R with context [ if ?c then _ else _ ] => destruct c end; injection R as <-; [ now apply hist_fail | exact H3 ].
Qed.
Lemma predict_hist og q h ps under q' : hist og q h -> predict eps gold gold2 g q ps under = Ok q' ->
  exists k, sub k ps /\ hist og q' (h ++ k).
Proof.
  intros H R. unfold predict in R. destruct (last_opt ps) as [ z | ] eqn:L.
  2: { injection R as <-. exists []. rewrite app_nil_r. split; [ apply sub_none | exact H ]. }
  destruct (predict_loop eps gold gold2 g q ps) as [ q1 | ] eqn:E; [ | discriminate ]. cbn [rbind] in R.
  destruct (loop_hist og ps q h q1 H E) as (k & K & H1). exists k. split; [ exact K | ].
  destruct (q_ok q1) eqn:O1; [ injection R as <-; exact H1 | ]. destruct (q_failed q1) eqn:F1; [ injection R as <-; exact H1 | ].
  cbn [negb andb] in R. destruct (last_opt under) as [ u | ]; [ | discriminate ].
  revert R. apply timeouts_hist; [ apply hist_done; exact H1 | exact O1 ].
Qed.
Lemma predict_hist_fresh og q h ps under q' : q_done q = None -> hist og q h -> predict eps gold gold2 g q ps under = Ok q' ->
  exists k r, ps = k ++ r /\ hist og q' (h ++ k).
Proof.
  intros D H R. unfold predict in R. destruct (last_opt ps) as [ z | ] eqn:L.
  2: { injection R as <-. exists [], ps. split; [ reflexivity | now rewrite app_nil_r ]. }
  destruct (predict_loop eps gold gold2 g q ps) as [ q1 | ] eqn:E; [ | discriminate ]. cbn [rbind] in R.
  destruct (loop_hist_fresh og ps q h q1 D H E) as (k & r & K & H1). exists k, r. split; [ exact K | ].
  destruct (q_ok q1) eqn:O1; [ injection R as <-; exact H1 | ]. destruct (q_failed q1) eqn:F1; [ injection R as <-; exact H1 | ].
  cbn [negb andb] in R. destruct (last_opt under) as [ u | ]; [ | discriminate ].
  revert R. apply timeouts_hist; [ apply hist_done; exact H1 | exact O1 ].
Qed.

(** Any number of updates, with the points and the underlying points of each. *)
Fixpoint updates (og : pt) (q : pred) (us : list (list tpt * list pt)) : res pred :=
  match us with
  | [] => Ok q
  | (ps, under) :: us =>
      let! q := predict eps gold gold2 g (set_origin q (Some og)) ps under in updates og q us
  end.
Lemma updates_hist og us : forall q h q', hist og (set_origin q (Some og)) h -> updates og q us = Ok q' -> us <> [] ->
  exists ks, Forall2 (fun k u => sub k (fst u)) ks us /\ hist og q' (h ++ concat ks).
Proof.
  induction us as [|[ps under] us IH]; intros q h q' H R Ne; [ contradiction | ]. cbn [updates] in R.
  destruct (predict eps gold gold2 g (set_origin q (Some og)) ps under) as [ q1 | ] eqn:E; [ | discriminate ]. cbn [rbind] in R.
  destruct (predict_hist _ _ _ _ _ _ H E) as (k & K & H1).
  destruct us as [|u us].
  - injection R as <-. exists [k]. split; [ constructor; [ exact K | constructor ] | ]. cbn. now rewrite app_nil_r.
  - destruct (IH q1 (h ++ k) q' (hist_origin _ _ _ H1) R) as (ks & Ks & H2); [ discriminate | ].
    exists (k :: ks). split; [ constructor; auto | ]. cbn. now rewrite <- app_assoc in H2.
Qed.

(** Success: the order of what was seen. *)
Definition ordered_success (og : pt) (q : pred) (h : list tpt) : Prop :=
  exists a i b t c c' e ex,
    h = a ++ i :: b ++ t :: c /\ c = c' ++ [e] /\
    kind TInt i /\ kind TTan t /\ Forall not_int a /\ Forall not_int b /\ Forall (kind TExt) c /\
    (g_minp g <= tangents a)%Z /\ last_ext b = Some ex /\
    (exists x, retest_limit og i x /\ (tx t >? x) = false) /\
    Exists (confirms og ex) c /\ fulfils i ex e /\ q_okpt q = Some (fst e).
Lemma hist_success og q h : hist og q h -> q_ok q = true -> ordered_success og q h.
Proof.
  intros [ [ _ A ] | (F & O & H) ] K; [ congruence | ].
  destruct (q_phase q) as [|n]; [ destruct H; congruence | ].
  destruct H as (a & i & r & (Hh & Ki & Na & Ct & Nr) & In & _ & Se & H).
  destruct n as [|n]; [ destruct H; congruence | ].
  destruct H as (b & t & c & ex & (Hr & Kt & Kc & Lb & Lim) & Rt & Ex & Cf & Qy & Ymin & Ymax & Xm & H).
  destruct n as [|[|[|n]]]; [ congruence | destruct H; congruence | | contradiction ].
  destruct H as (_ & Co & c' & e & Hc & Fu & Okp).
  exists a, i, b, t, c, c', e, ex. subst h r. apply Forall_app in Nr. destruct Nr as [ Nb _ ]. auto 15.
Qed.
Lemma hist_phase og q h : hist og q h -> q_failed q = false -> (q_phase q <= 4)%nat /\ (q_ok q = true <-> q_phase q = 4%nat).
Proof.
  intros [ [ A _ ] | (F & O & H) ] K; [ congruence | ].
  destruct (q_phase q) as [|n]; [ destruct H as [ H _ ]; rewrite H; split; [ lia | split; discriminate ] | ].
  destruct H as (a & i & r & _ & _ & _ & _ & H).
  destruct n as [|n]; [ destruct H as [ H _ ]; rewrite H; split; [ lia | split; discriminate ] | ].
  destruct H as (b & t & c & ex & _ & _ & _ & _ & _ & _ & _ & _ & H).
  destruct n as [|[|[|n]]]; [ rewrite H; split; [ lia | split; discriminate ]
    | destruct H as [ H _ ]; rewrite H; split; [ lia | split; discriminate ]
    | destruct H as [ H _ ]; rewrite H; split; [ lia | split; reflexivity ] | contradiction ].
Qed.
End Pred.
