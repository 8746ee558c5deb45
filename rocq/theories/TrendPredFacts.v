(** More on the prediction: how a phase moves, when it is over, and when an
    update cannot raise. *)
From Coq Require Import List ZArith Bool Lia QArith Qcanon.
From Verif Require Import Base Num NumFacts Interval Points PointsOps Trend TrendGeo TrendPred.
Import ListNotations.
Open Scope num_scope.
Open Scope bool_scope.

Section Phase.
Context {T : Type} {N : Num T}.
Variables (eps gold gold2 : T) (g : cfg T).
Notation tpt := (tpt T).
Notation pred := (pred T).
Notation one := (predict_one eps gold gold2 g).
Notation loop := (predict_loop eps gold gold2 g).

(** Once succeeded or failed, nothing changes. *)
Lemma one_frozen q p : q_ok q || q_failed q = true -> exists b, one q p = Ok (q, b).
Proof.
  intro H. destruct p as [[px py] ty]. unfold predict_one.
  destruct (match q_done q with Some d => px <? d | None => false end); [ eauto | ]. rewrite H. eauto.
Qed.
Lemma loop_frozen ps : forall q, q_ok q || q_failed q = true -> loop q ps = Ok q.
Proof.
  induction ps as [|p ps IH]; intros q H; [ reflexivity | ]. cbn [predict_loop]. destruct (one_frozen q p H) as (b & ->). cbn [rbind].
  destruct b; auto.
Qed.
Lemma predict_frozen q ps under : q_ok q || q_failed q = true -> predict eps gold gold2 g q ps under = Ok q.
Proof.
  intro H. unfold predict. destruct (last_opt ps); [ | reflexivity ]. rewrite (loop_frozen ps q H). cbn [rbind].
  replace (negb (q_ok q) && negb (q_failed q)) with false; [ reflexivity | ]. rewrite <- negb_orb, H. reflexivity.
Qed.

(** The moves of the phase at one point. *)
Inductive move : nat -> ptype -> nat -> Prop :=
| mv_stay n k : move n k n
| mv_cross : move 0 TInt 1
| mv_retest n : (1 <= n <= 3)%nat -> move n TTan 2
| mv_confirm : move 2 TExt 3
| mv_both : move 2 TExt 4
| mv_fulfil : move 3 TExt 4.
Lemma target_phase q o : set_target eps gold gold2 g q = Ok (Some o) -> q_phase o = q_phase q.
Proof.
  unfold set_target. destruct (q_inter q); [ | discriminate ]. destruct (q_seen q); [ | discriminate ].
  destruct (q_origin q); [ | discriminate ]. cbn [need rbind]. now intros [= <-].
Qed.
Lemma one_move q p q' b : (q_phase q <= 4)%nat -> (q_phase q = 4%nat -> q_ok q = true) -> one q p = Ok (q', b) ->
  move (q_phase q) (snd p) (q_phase q').
Proof.
  intros H4 Hok R. destruct p as [[px py] ty]. unfold predict_one in R. cbn [snd].
  destruct (match q_done q with Some d => px <? d | None => false end); [ injection R as <- <-; constructor | ].
  destruct (q_ok q || q_failed q) eqn:Fr; [ injection R as <- <-; constructor | ]. apply orb_false_iff in Fr. destruct Fr as [ No Nf ].
  destruct (q_phase q =? 0)%nat eqn:P0.
  - apply Nat.eqb_eq in P0. destruct ty; [ injection R as <- <-; constructor | injection R as <- <-; constructor | ].
    destruct (_ <? _)%Z; [ injection R as <- <-; constructor | ]. destruct (need (q_origin q)); [ | discriminate ]. cbn [rbind] in R.
    destruct (n_div _ _); [ | discriminate ]. injection R as <- <-. rewrite P0. constructor.
  - apply Nat.eqb_neq in P0. destruct ty; [ | | injection R as <- <-; constructor ].
    + set (q1 := set_seen q (px, py)) in *.
      match type of R with rbind ?X _ = _ => destruct X as [ [ q2 | ] | ] eqn:E2; [ | injection R as <- <-; constructor | discriminate R ]; cbn [rbind] in R end.
      assert (P2 : q_phase q2 = q_phase q).
      { destruct (q_phase q1 =? 1)%nat; [ apply target_phase in E2; exact E2 | injection E2 as <-; reflexivity ]. }
      match type of R with rbind ?X _ = _ => destruct X as [ q3 | ] eqn:E3; [ | discriminate R ]; cbn [rbind] in R end.
      assert (P3 : q_phase q3 = q_phase q \/ q_phase q = 2%nat /\ q_phase q3 = 3%nat).
      { destruct (q_phase q2 =? 2)%nat eqn:X; [ | injection E3 as <-; now left ]. apply Nat.eqb_eq in X.
        destruct (need (q_conf q2)); [ | discriminate ]. cbn [rbind] in E3. destruct (seg_y _ px); [ | discriminate ]. cbn [rbind] in E3.
        destruct (need a0); [ | discriminate ]. cbn [rbind] in E3.
        match type of E3 with context [ if ?c then _ else _ ] => destruct c end; injection E3 as <-; [ right; split; [ congruence | reflexivity ] | now left ]. }
      destruct (q_phase q3 =? 3)%nat eqn:X3.
      * apply Nat.eqb_eq in X3. destruct (need (q_ymin q3)); [ | discriminate ]. cbn [rbind] in R. destruct (need (q_ymax q3)); [ | discriminate ]. cbn [rbind] in R.
        match type of R with (if ?c then _ else _) = _ => destruct c end.
        -- injection R as <- <-. cbn. destruct P3 as [ P3 | [ P3 _ ] ]; [ rewrite <- P3, X3 | rewrite P3 ]; constructor.
        -- destruct (need (q_xmax q3)); [ | discriminate ]. cbn [rbind] in R.
           match type of R with (if ?c then _ else _) = _ => destruct c end; injection R as <- <-; cbn;
             (destruct P3 as [ P3 | [ P3 P3' ] ]; [ rewrite P3; constructor | rewrite P3, P3'; constructor ]).
      * injection R as <- <-. destruct P3 as [ -> | [ _ P3' ] ]; [ constructor | ]. rewrite P3' in X3. discriminate.
    + destruct (need (q_rxmax q)); [ | discriminate ]. cbn [rbind] in R.
      match type of R with (if ?c then _ else _) = _ => destruct c end; [ injection R as <- <-; constructor | ].
      destruct (set_target eps gold gold2 g q) as [ [ q2 | ] | ]; [ | | discriminate ]; cbn [rbind] in R; injection R as <- <-; [ | constructor ].
      cbn. constructor. destruct (Nat.eq_dec (q_phase q) 4) as [ E | E ]; [ rewrite (Hok E) in No; discriminate | lia ].
Qed.
Lemma move_low n k n' : move n k n' -> (Nat.min 2 n <= n')%nat.
Proof. destruct 1; lia. Qed.
Lemma move_up n k n' : move n k n' -> k <> TTan -> (n <= n')%nat.
Proof. destruct 1; lia || congruence. Qed.
Lemma move_top n k n' : move n k n' -> n' = 4%nat -> n <> 4%nat -> k = TExt /\ (n = 2 \/ n = 3)%nat.
Proof. destruct 1; intros; subst; auto; lia || congruence. Qed.

Lemma hist_move og q h p q' b : hist eps gold gold2 g og q h -> one q p = Ok (q', b) -> move (q_phase q) (snd p) (q_phase q').
Proof.
  intros H R. destruct (q_failed q) eqn:F.
  - destruct (one_frozen q p) as (b' & E); [ rewrite F; apply orb_true_r | ]. rewrite E in R. injection R as <- <-. constructor.
  - destruct (hist_phase _ _ _ _ _ _ _ H F) as [ A B ]. eapply one_move; [ exact A | apply B | exact R ].
Qed.
Lemma loop_low og ps : forall q h q', hist eps gold gold2 g og q h -> loop q ps = Ok q' -> (Nat.min 2 (q_phase q) <= q_phase q')%nat.
Proof.
  induction ps as [|p ps IH]; intros q h q' H R; cbn [predict_loop] in R; [ injection R as <-; lia | ].
  destruct (one q p) as [ [q1 st] | ] eqn:E; [ | discriminate ]. cbn [rbind] in R.
  pose proof (move_low _ _ _ (hist_move og q h p q1 st H E)) as M. destruct st; [ injection R as <-; exact M | ].
  destruct (step_hist _ _ _ _ _ _ _ _ _ _ H E) as [ [ -> _ ] | H1 ]; [ eapply IH; eauto | ].
  specialize (IH q1 _ q' H1 R). lia.
Qed.
Lemma loop_up og ps : (forall p, In p ps -> snd p <> TTan) -> forall q h q', hist eps gold gold2 g og q h -> loop q ps = Ok q' -> (q_phase q <= q_phase q')%nat.
Proof.
  induction ps as [|p ps IH]; intros Nt q h q' H R; cbn [predict_loop] in R; [ injection R as <-; lia | ].
  destruct (one q p) as [ [q1 st] | ] eqn:E; [ | discriminate ]. cbn [rbind] in R.
  pose proof (move_up _ _ _ (hist_move og q h p q1 st H E) (Nt p (or_introl eq_refl))) as M. destruct st; [ injection R as <-; exact M | ].
  assert (Nt' : forall p, In p ps -> snd p <> TTan) by (intros p' K; apply Nt; now right).
  destruct (step_hist _ _ _ _ _ _ _ _ _ _ H E) as [ [ -> _ ] | H1 ]; [ eapply IH; eauto | ].
  specialize (IH Nt' q1 _ q' H1 R). lia.
Qed.
Lemma predict_phase q ps under q' : predict eps gold gold2 g q ps under = Ok q' ->
  exists q1, loop q ps = Ok q1 /\ q_phase q' = q_phase q1.
Proof.
  unfold predict. destruct (last_opt ps) as [ z | ] eqn:L.
  2: { intros [= <-]. destruct ps as [|a l]; [ exists q; auto | ]. exfalso. destruct (PointsIdx.last_opt_cons a l) as (x & E). congruence. }
  destruct (loop q ps) as [ q1 | ]; [ | discriminate ]. cbn [rbind]. intro R. exists q1. split; [ reflexivity | ].
  destruct (negb (q_ok q1) && _); [ | now injection R as <- ]. destruct (last_opt under); [ | discriminate ].
  match type of R with rbind ?X _ = _ => destruct X as [ q3 | ] eqn:E3; [ | discriminate R ]; cbn [rbind] in R end.
  assert (P3 : q_phase q3 = q_phase q1).
  { destruct (2 <=? _)%nat; [ | injection E3 as <-; reflexivity ]. destruct (need _); [ | discriminate ]. cbn [rbind] in E3.
    injection E3 as <-. destruct (_ >=? _); reflexivity. }
  destruct (_ =? 1)%nat; [ | injection R as <-; exact P3 ]. destruct (need (q_rxmax q3)); [ | discriminate ]. cbn [rbind] in R.
  injection R as <-. destruct (_ >=? _); exact P3.
Qed.
Lemma predict_low og q h ps under q' : hist eps gold gold2 g og q h -> predict eps gold gold2 g q ps under = Ok q' ->
  (Nat.min 2 (q_phase q) <= q_phase q')%nat.
Proof. intros H R. apply predict_phase in R. destruct R as (q1 & R & ->). eapply loop_low; eauto. Qed.
Lemma predict_up og q h ps under q' : (forall p, In p ps -> snd p <> TTan) -> hist eps gold gold2 g og q h ->
  predict eps gold gold2 g q ps under = Ok q' -> (q_phase q <= q_phase q')%nat.
Proof. intros Nt H R. apply predict_phase in R. destruct R as (q1 & R & ->). eapply loop_up; eauto. Qed.
End Phase.

(** ** When an update cannot raise *)
Section Total.
Variables (eps gold2 : xq) (gold : Qc) (g : cfg xq) (ox oy : Qc).
Hypothesis Hg : gold <> Q2Qc 0.
Let og : xq * xq := (Fin ox, Fin oy).
Notation one := (predict_one eps (Fin gold) gold2 g).
Notation hist := (hist eps (Fin gold) gold2 g og).

(** a finite point to a side of the origin *)
Definition aside (p : tpt xq) : Prop := exists x y, fst p = (Fin x, Fin y) /\ x <> ox.

Lemma last_ext_in (l : list (tpt xq)) e : last_ext l = Some e -> exists p, In p l /\ fst p = e.
Proof.
  induction l as [|p l IH]; [ discriminate | ]. cbn [last_ext]. destruct (last_ext l) as [ e' | ].
  - intros [= <-]. destruct (IH eq_refl) as (p' & K & E). exists p'. split; [ now right | exact E ].
  - destruct (snd p); try discriminate. intros [= <-]. exists p. split; [ now left | reflexivity ].
Qed.
Lemma conf_total x1 y1 x : x1 <> ox -> exists v, seg_y (og, (Fin x1, Fin y1)) (Fin x) = Ok (Some v).
Proof.
  intro H. pose proof (seg_y_slope ((ox, oy), (x1, y1)) x) as E. cbn [fst snd] in E. eexists. apply E. congruence.
Qed.
Lemma one_total q h p : hist q h -> Forall aside h -> aside p -> exists r, one q p = Ok r.
Proof.
  intros H Fh Hp. destruct (q_ok q || q_failed q) eqn:Fr; [ destruct (one_frozen eps (Fin gold) gold2 g q p Fr) as (b & ->); eauto | ].
  apply orb_false_iff in Fr. destruct Fr as [ No Nf ].
  destruct p as [[px py] ty]. destruct Hp as (x & y & Ep & Hx). cbn in Ep. injection Ep as -> ->.
  unfold predict_one. destruct (match q_done q with Some d => _ | None => false end); [ eauto | ]. rewrite No, Nf. cbn [orb].
  destruct H as [ [ F _ ] | (_ & Og & H) ]; [ congruence | ].
  destruct (q_phase q) as [|n] eqn:Ph.
  - cbn [Nat.eqb]. destruct ty; [ eauto | eauto | ]. destruct (_ <? _)%Z; [ eauto | ]. rewrite Og. cbn [need rbind].
    change (n_sub (Fin x) (fst og)) with (Fin (x - ox)%Qc). cbn [n_div XQ]. rewrite xq_div_fin by exact Hg. cbn [rbind]. eauto.
  - change (S n =? 0)%nat with false. cbn iota.
    destruct H as (a & i & r & (Hh & Ki & Na & Ct & Nr) & In & (rx & Rl & Rx) & Se & H).
    destruct ty; [ | | eauto ].
    + set (q1 := set_seen q (Fin x, Fin y)). change (q_phase q1) with (q_phase q). rewrite Ph.
      destruct n as [|n].
      * cbn [Nat.eqb]. rewrite (target_ok eps (Fin gold) gold2 g og q1 (Fin x, Fin y) (fst i)) by (first [ exact Og | exact In | reflexivity ]).
        cbn [rbind aim q_phase]. change (q_phase q1) with (q_phase q). rewrite Ph. cbn [Nat.eqb rbind aim q_phase].
        change (q_phase q1) with (q_phase q). rewrite Ph. cbn [Nat.eqb]. eauto.
      * destruct H as (b & t & c & ex & (Hr & Kt & Kc & Lb & Lim) & Rt & Ex & Cf & Qy & Ymin & Ymax & Xm & H).
        cbn [Nat.eqb rbind]. change (q_phase q1) with (q_phase q). rewrite Ph.
        assert (Fin3 : forall q2, q_ymin q2 = q_ymin q -> q_ymax q2 = q_ymax q -> q_xmax q2 = q_xmax q -> exists r,
          (if (q_phase q2 =? 3)%nat then
             let! lo := need (q_ymin q2) in
             let! hi := need (q_ymax q2) in
             if (g_upper g && (Fin y >=? lo)) || (negb (g_upper g) && (Fin y <=? hi)) then Ok (set_ok q2 (Fin x, Fin y), true)
             else let! xm := need (q_xmax q2) in
                  if Fin x >=? xm then Ok (set_failed q2, true) else Ok (q2, false)
           else Ok (q2, false)) = Ok r).
        { intros q2 E1 E2 E3. rewrite E1, E2, E3, Ymin, Ymax, Xm. cbn [need rbind].
          destruct (q_phase q2 =? 3)%nat; [ | eauto ].
          match goal with |- context [ if ?c then _ else _ ] => destruct c end; [ eauto | ].
          match goal with |- context [ if ?c then _ else _ ] => destruct c end; eauto. }
        destruct n as [|n].
        -- cbn [Nat.eqb]. change (q_conf q1) with (q_conf q). rewrite Cf. cbn [need rbind].
           destruct (last_ext_in b ex Lb) as (pe & Ke & Ee).
           assert (Ae : aside pe).
           { rewrite Forall_forall in Fh. apply Fh. rewrite Hh, Hr. apply in_or_app. right. right. apply in_or_app. now left. }
           destruct Ae as (ex1 & ey1 & Ep & Hex). rewrite Ee in Ep. rewrite Ep.
           destruct (conf_total ex1 ey1 x Hex) as (v & Ev).
           unfold pt, seg. rewrite Ev. cbn [rbind need].
           match goal with |- context [ if ?c then set_phase q1 3 else q1 ] => destruct c end; apply Fin3; reflexivity.
        -- cbn [Nat.eqb rbind]. apply Fin3; reflexivity.
    + rewrite Rx. cbn [need rbind]. match goal with |- context [ if ?c then _ else _ ] => destruct c end; [ eauto | ].
      destruct (q_seen q) as [ ex | ] eqn:Sq.
      * rewrite (target_ok eps (Fin gold) gold2 g og q ex (fst i)) by assumption. cbn [rbind]. eauto.
      * unfold set_target. rewrite In, Sq. cbn [rbind]. eauto.
Qed.
Lemma loop_total ps : forall q h, hist q h -> Forall aside h -> Forall aside ps -> exists q', predict_loop eps (Fin gold) gold2 g q ps = Ok q'.
Proof.
  induction ps as [|p ps IH]; intros q h H Fh Fp; [ eexists; reflexivity | ]. cbn [predict_loop].
  destruct (one_total q h p H Fh (Forall_inv Fp)) as ([q1 st] & E). rewrite E. cbn [rbind]. destruct st; [ eauto | ].
  destruct (step_hist _ _ _ _ _ _ _ _ _ _ H E) as [ [ -> _ ] | H1 ]; [ exact (IH q h H Fh (Forall_inv_tail Fp)) | ].
  apply (IH q1 (h ++ [p]) H1); [ | exact (Forall_inv_tail Fp) ]. apply Forall_app. split; [ exact Fh | ]. constructor; [ exact (Forall_inv Fp) | constructor ].
Qed.
Lemma predict_total q h ps under : hist q h -> Forall aside h -> Forall aside ps -> under <> [] ->
  exists q', predict eps (Fin gold) gold2 g q ps under = Ok q'.
Proof.
  intros H Fh Fp Hu. unfold predict. destruct (last_opt ps); [ | eauto ].
  destruct (loop_total ps q h H Fh Fp) as (q1 & E). rewrite E. cbn [rbind].
  destruct (loop_hist _ _ _ _ _ _ _ _ _ H E) as (k & _ & H1).
  destruct (q_ok q1) eqn:O1; [ cbn [negb andb]; eauto | ]. destruct (q_failed q1) eqn:F1; [ cbn [negb andb]; eauto | ]. cbn [negb andb].
  destruct under as [|u0 us]; [ contradiction | ]. destruct (PointsIdx.last_opt_cons u0 us) as (u & Eu). unfold pt in *. rewrite Eu.
  destruct H1 as [ [ F _ ] | (_ & _ & H1) ]; [ congruence | ]. cbn [q_phase set_done].
  destruct (q_phase q1) as [|[|n]] eqn:Ph.
  - cbn [Nat.leb rbind q_phase set_done]. rewrite Ph. cbn. eauto.
  - destruct H1 as (? & ? & ? & _ & _ & (rx & _ & Rx) & _). cbn [Nat.leb rbind q_phase set_done]. rewrite Ph. cbn [Nat.eqb q_rxmax set_done]. rewrite Rx. cbn. eauto.
  - destruct H1 as (? & ? & ? & _ & _ & (rx & _ & Rx) & _ & ? & ? & ? & ? & _ & _ & _ & _ & _ & _ & _ & Xm & _).
    cbn [Nat.leb q_xmax set_done]. rewrite Xm. cbn [need rbind].
    match goal with |- context [ if ?c then set_failed _ else _ ] => destruct c end; cbn [q_phase set_failed set_done]; rewrite Ph; cbn [Nat.eqb]; eauto.
Qed.
End Total.
