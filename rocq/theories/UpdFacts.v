(** The begin/end protocol of one curve over arbitrary histories. *)
From Coq Require Import List ZArith QArith Bool Lia.
From Verif Require Import Base Num NumFacts Interval IntervalFacts Curve PointsOps.
Import ListNotations.

(** [phase u B E]: the curve reached state [u]; since it was created or since
    its last end notification the updates [B] were begun and [E] were ended. *)
Inductive phase : upd xq -> list (ival xq) -> list (ival xq) -> Prop :=
| ph_start : phase upd_init [] []
| ph_read u B E (o : option (ival xq)) : phase u B E -> phase (mkU (u_begin u) (u_end u) o) B E
| ph_begin u B E d u' n : phase u B E -> iok d -> begin_update u d = (u', n) -> phase u' (d :: B) E
| ph_wait u B E d u' : phase u B E -> iok d -> end_update u d = (u', None) -> phase u' B (d :: E)
| ph_fire u B E d u' D : phase u B E -> iok d -> end_update u d = (u', Some D) -> phase u' [] [].

(** [h] is the smallest interval containing every interval of [l]. *)
Definition hull (l : list (ival xq)) (h : ival xq) : Prop :=
  (forall d, In d l -> i_superset h d = true) /\
  (forall c, iok c -> (forall d, In d l -> i_superset c d = true) -> i_superset c h = true).

Lemma hull_nil : hull [] i_empty.
Proof. split; [contradiction|]. intros c _ _. apply superset_empty_r, i_empty_is_empty. Qed.
Lemma hull_cons l h (d : ival xq) : iok h -> iok d -> Forall iok l -> hull l h -> hull (d :: l) (i_union2 h d).
Proof.
  intros Hh Hd Hl [H1 H2]. assert (HU : iok (i_union2 h d)) by now apply iok_union2. split.
  - intros x [<-|I]; [now apply union2_superset_r|].
    apply superset_trans with h; auto; [exact (proj1 (Forall_forall _ _) Hl x I)|now apply union2_superset_l].
  - intros c Hc K. apply union2_least; auto; [|apply K; simpl; auto].
    apply H2; auto. intros x I. apply K. simpl; auto.
Qed.
Lemma hull_skip l h (d : ival xq) : i_superset h d = true -> hull l h -> hull (d :: l) h.
Proof.
  intros S [H1 H2]. split; [intros x [<-|I]; auto|]. intros c Hc K. apply H2; auto. intros x I. apply K. simpl; auto.
Qed.

Record pinv (u : upd xq) B E : Prop := {
  pv_okb : iok (u_begin u);
  pv_oke : iok (u_end u);
  pv_B : Forall iok B;
  pv_E : Forall iok E;
  pv_hb : hull B (u_begin u);
  pv_he : hull E (u_end u);
  pv_J : idle u \/ i_superset (u_end u) (u_begin u) = false
}.

Lemma phase_inv u B E : phase u B E -> pinv u B E.
Proof.
  induction 1 as [|u B E o H IH|u B E d u' n H IH Hd Es|u B E d u' H IH Hd Es|u B E d u' D H IH Hd Es].
  - constructor; try apply iok_empty; try constructor; try apply hull_nil. split; reflexivity.
  - destruct IH. constructor; auto.
  - destruct IH as [O1 O2 FB FE HB HE J]. unfold begin_update in Es.
    destruct (i_is_empty d || i_superset (u_begin u) d) eqn:X.
    + injection Es as <- _. constructor; auto. apply hull_skip; auto.
      apply orb_true_iff in X. destruct X; auto. now apply superset_empty_r.
    + injection Es as <- _. apply orb_false_iff in X. destruct X as [X1 X2].
      assert (OU : iok (i_union2 (u_begin u) d)) by now apply iok_union2.
      constructor; cbn [u_begin u_end]; auto; [now apply hull_cons|].
      right. destruct (i_superset (u_end u) (i_union2 (u_begin u) d)) eqn:S; auto. exfalso. destruct J as [[J1 J2]|J].
      * rewrite J2 in S. rewrite superset_empty_l in S by apply i_empty_is_empty.
        rewrite union2_is_empty in S by auto. rewrite X1, andb_false_r in S. discriminate.
      * assert (i_superset (u_end u) (u_begin u) = true); [|congruence].
        apply superset_trans with (i_union2 (u_begin u) d); auto. now apply union2_superset_l.
  - destruct IH as [O1 O2 FB FE HB HE J]. unfold end_update in Es.
    destruct (i_is_empty d || i_superset (u_end u) d) eqn:X.
    + injection Es as <-. constructor; auto. apply hull_skip; auto.
      apply orb_true_iff in X. destruct X; auto. now apply superset_empty_r.
    + destruct (i_superset (i_union2 (u_end u) d) (u_begin u)) eqn:S; cbn [negb] in Es; [discriminate|].
      injection Es as <-. assert (OU : iok (i_union2 (u_end u) d)) by now apply iok_union2.
      constructor; cbn [u_begin u_end]; auto. now apply hull_cons.
  - unfold end_update in Es. destruct (i_is_empty d || i_superset (u_end u) d); [discriminate|].
    destruct (negb _); [discriminate|]. injection Es as <- _.
    constructor; try apply iok_empty; try constructor; try apply hull_nil. split; reflexivity.
Qed.

(** What an end notification reports. *)
Theorem end_fires u B E d u' D : phase u B E -> iok d -> end_update u d = (u', Some D) ->
  hull (d :: E) D /\ (forall b, In b B -> i_superset D b = true) /\ u' = upd_init.
Proof.
  intros H Hd Es. destruct (phase_inv _ _ _ H) as [O1 O2 FB FE HB HE J]. unfold end_update in Es.
  destruct (i_is_empty d || i_superset (u_end u) d) eqn:X; [discriminate|].
  destruct (i_superset (i_union2 (u_end u) d) (u_begin u)) eqn:S; cbn [negb] in Es; [|discriminate].
  injection Es as <- <-. assert (OU : iok (i_union2 (u_end u) d)) by now apply iok_union2.
  split; [now apply hull_cons|]. split; [|reflexivity]. intros b I.
  apply superset_trans with (u_begin u); auto; [exact (proj1 (Forall_forall _ _) FB b I)|now apply HB].
Qed.

(** It fires exactly when everything begun is covered by what has ended. *)
Theorem end_fires_iff u B E d h : phase u B E -> iok d -> i_is_empty d = false -> iok h -> hull (d :: E) h ->
  (exists u' D, end_update u d = (u', Some D)) <-> (forall b, In b B -> i_superset h b = true).
Proof.
  intros H Hd Hn Hh HH. destruct (phase_inv _ _ _ H) as [O1 O2 FB FE HB HE J].
  assert (OU : iok (i_union2 (u_end u) d)) by now apply iok_union2.
  pose proof (hull_cons E (u_end u) d O2 Hd FE HE) as HU.
  split.
  - intros [u' [D Es]] b I. destruct (end_fires u B E d u' D H Hd Es) as [K1 [K2 _]].
    assert (D = i_union2 (u_end u) d) as ->.
    { unfold end_update in Es. destruct (i_is_empty d || _); [discriminate|]. destruct (negb _); [discriminate|]. congruence. }
    apply superset_trans with (i_union2 (u_end u) d); auto; [exact (proj1 (Forall_forall _ _) FB b I)|].
    apply HU; auto. apply HH.
  - intros K. assert (SB : i_superset (i_union2 (u_end u) d) (u_begin u) = true).
    { apply HB; auto. intros b I. apply superset_trans with h; auto; [exact (proj1 (Forall_forall _ _) FB b I)|]. apply HH; auto. apply HU. }
    unfold end_update. rewrite Hn. simpl orb. destruct (i_superset (u_end u) d) eqn:X.
    + exfalso. destruct J as [[J1 J2]|J].
      * rewrite J2, superset_empty_l in X by apply i_empty_is_empty. congruence.
      * assert (i_superset (u_end u) (u_begin u) = true); [|congruence].
        apply superset_trans with (i_union2 (u_end u) d); auto. apply HU; auto.
        intros x [<-|I]; auto. now apply HE.
    + rewrite SB. simpl. eauto.
Qed.

(** ** When everything begun has been ended, the curve is idle *)
Inductive pop := PBegin (d : ival xq) | PEnd (d : ival xq).
Definition pstep (u : upd xq) (o : pop) : upd xq :=
  match o with PBegin d => fst (begin_update u d) | PEnd d => fst (end_update u d) end.
Definition prun (u : upd xq) (l : list pop) : upd xq := fold_left pstep l u.
Definition pop_ival (o : pop) : ival xq := match o with PBegin d => d | PEnd d => d end.

Lemma prun_idle l : forall u B E, phase u B E -> Forall (fun o => iok (pop_ival o)) l ->
  (forall b, In b B -> In b E \/ In (PEnd b) l) ->
  (forall l1 d l2, l = l1 ++ PBegin d :: l2 -> In (PEnd d) l2) ->
  idle (prun u l).
Proof.
  induction l as [|o l IH]; intros u B E H F K Q; simpl.
  - destruct (phase_inv _ _ _ H) as [O1 O2 FB FE HB HE J]. destruct J as [J|J]; auto. exfalso.
    assert (i_superset (u_end u) (u_begin u) = true); [|congruence].
    apply HB; auto. intros b I. destruct (K b I) as [I'|[]]. now apply HE.
  - inversion F; subst. destruct o as [d|d]; cbn [pstep pop_ival] in *.
    + destruct (begin_update u d) as [u' n] eqn:Es. cbn [fst].
      apply (IH u' (d :: B) E); auto.
      * eapply ph_begin; eauto.
      * intros b [<-|I].
        -- right. apply (Q [] d l eq_refl).
        -- destruct (K b I) as [I'|[I'|I']]; auto. discriminate.
      * intros l1 x l2 ->. apply (Q (PBegin d :: l1) x l2). reflexivity.
    + destruct (end_update u d) as [u' [D|]] eqn:Es; cbn [fst].
      * apply (IH u' [] []); auto; [eapply ph_fire; eauto|].
        intros l1 x l2 ->. apply (Q (PEnd d :: l1) x l2). reflexivity.
      * apply (IH u' B (d :: E)); auto; [eapply ph_wait; eauto| |].
        -- intros b I. destruct (K b I) as [I'|[I'|I']]; simpl; auto. injection I' as <-. auto.
        -- intros l1 x l2 ->. apply (Q (PEnd d :: l1) x l2). reflexivity.
Qed.

Theorem all_ended_idle l : Forall (fun o => iok (pop_ival o)) l ->
  (forall l1 d l2, l = l1 ++ PBegin d :: l2 -> In (PEnd d) l2) ->
  is_updating (prun upd_init l) = false.
Proof.
  intros F Q. destruct (prun_idle l upd_init [] [] ph_start F) as [J1 J2]; auto.
  unfold is_updating. now rewrite J1.
Qed.
