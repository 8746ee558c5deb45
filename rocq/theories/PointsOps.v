(** Facts about the mutating operations of Points over exact numbers. *)
From Coq Require Import List ZArith QArith Qcanon Bool Lia Lqa Sorting.Sorted Zify ZifyBool.
From Verif Require Import Base Num NumFacts Interval IntervalFacts Curve Points PointsSpec PointsIdx PointsQuery PointsDom.
Import ListNotations.

(** ** One update cycle of an idle curve *)
Definition idle (u : upd xq) : Prop := u_begin u = i_empty /\ u_end u = i_empty.

Lemma begin_idle u d : idle u -> iok d -> i_is_empty d = false ->
  begin_update u d = (mkU d i_empty (u_dom u), Some d).
Proof.
  intros [H1 H2] Hd He. unfold begin_update. rewrite H1, H2, He.
  rewrite superset_empty_l by apply i_empty_is_empty. rewrite He. simpl orb.
  rewrite union2_empty_l by auto. reflexivity.
Qed.
Lemma end_begun d o : iok d -> i_is_empty d = false ->
  end_update (mkU d i_empty o) d = (mkU i_empty i_empty None, Some d).
Proof.
  intros Hd He. unfold end_update. cbn [u_begin u_end u_dom]. rewrite He.
  rewrite superset_empty_l by apply i_empty_is_empty. rewrite He. simpl orb.
  rewrite union2_empty_l by auto. rewrite superset_refl by auto. reflexivity.
Qed.
Lemma begin_empty (u : upd xq) d : i_is_empty d = true -> begin_update u d = (u, None).
Proof. intros H. unfold begin_update. now rewrite H. Qed.
Lemma end_empty (u : upd xq) d : i_is_empty d = true -> end_update u d = (u, None).
Proof. intros H. unfold end_update. now rewrite H. Qed.

Section Ops.
Context {V : Type} {W : Val xq V}.
Implicit Type l : list (xq * V).
Implicit Type s : pts xq V.

(** Everything in [good] except the truthfulness of is_uniform. *)
Definition calm s : Prop :=
  ascending (p_pts s) /\
  span_interval (p_pts s) = Ok (p_int s) /\
  idle (p_upd s) /\
  (u_dom (p_upd s) = None \/ u_dom (p_upd s) = Some (pts_domain (p_pts s))).

Definition truthful s : Prop := p_uniform s = true -> equally_spaced (p_pts s).

Lemma good_calm s : good s <-> calm s /\ truthful s.
Proof. unfold good, calm, truthful, idle. tauto. Qed.

Lemma calm_dom s : calm s -> p_dom s = pts_domain (p_pts s).
Proof. intros [_ [_ [_ [H|H]]]]; unfold p_dom; rewrite H; reflexivity. Qed.

Lemma p_touch_dom s : p_dom (p_touch s) = p_dom s.
Proof. reflexivity. Qed.
Lemma calm_touch s : calm s -> calm (p_touch s).
Proof.
  intros C. pose proof (calm_dom s C) as D. destruct C as [H1 [H2 [[H3 H3'] H4]]].
  unfold calm, idle, p_touch; simpl. rewrite D. tauto.
Qed.
Lemma good_touch s : good s -> good (p_touch s).
Proof.
  rewrite !good_calm. intros [C T]. split; [now apply calm_touch|exact T].
Qed.

Lemma ascending_span_ok l : ascending l -> exists h, span_interval l = Ok h.
Proof. intros H. apply ascending_knots in H. destruct H as [qs K]. rewrite (span_interval_knots _ _ K). eauto. Qed.

Lemma iok_pts_domain l : ascending l -> iok (pts_domain l).
Proof.
  intros H. apply ascending_knots in H. destruct H as [qs K]. rewrite (pts_domain_knots _ _ K).
  destruct (_ =? _)%nat; auto with nn.
Qed.
Lemma pts_domain_empty_iff l : ascending l -> i_is_empty (pts_domain l) = true <-> l = [].
Proof.
  intros H. apply ascending_knots in H. destruct H as [qs K]. rewrite (pts_domain_knots _ _ K).
  pose proof (knots_len _ _ K) as L.
  destruct (Nat.eqb_spec (length qs) 0) as [E|E].
  - split; [intros _; destruct l; auto; simpl in L; lia | reflexivity].
  - rewrite closed_nonempty.
    + split; [discriminate|]. intros ->. simpl in L. lia.
    + apply asc_le; [apply K|lia].
Qed.

(** The result of a finished update. *)
Definition settled s l (b : bool) : pts xq V :=
  mkP l (match span_interval l with Ok h => h | Err _ => None end) (p_force s) b (p_interp s)
      (mkU i_empty i_empty None).

Lemma settled_calm s l b : ascending l -> calm (settled s l b).
Proof.
  intros H. destruct (ascending_span_ok l H) as [h E]. unfold calm, settled; simpl. rewrite E.
  split; [exact H|]. split; [reflexivity|]. split; [split; reflexivity|now left].
Qed.

(** set *)
Definition set_domain s (points : list (xq * V)) (ud : option (ival xq)) : ival xq :=
  match ud with
  | Some d => d
  | None => match head_opt points, last_opt points with
            | Some a, Some b => i_union2 (p_dom s) (i_closed (fst a) (fst b))
            | _, _ => p_dom s
            end
  end.

Lemma ends_ok l a b : ascending l -> head_opt l = Some a -> last_opt l = Some b ->
  pts_domain l = i_closed (fst a) (fst b).
Proof. intros H E1 E2. unfold pts_domain. rewrite E1, E2. reflexivity. Qed.

Lemma iok_set_domain s points (ud : option (ival xq)) : calm s -> ascending points -> (forall d, ud = Some d -> iok d) ->
  iok (set_domain s points ud).
Proof.
  intros C A H. unfold set_domain. destruct ud as [d|]; auto.
  assert (iok (p_dom s)) by (rewrite calm_dom by auto; apply iok_pts_domain, C).
  destruct (head_opt points) as [a|] eqn:E1; auto.
  destruct (last_opt points) as [b|] eqn:E2; auto.
  apply iok_union2; auto. rewrite <- (ends_ok points a b) by auto. now apply iok_pts_domain.
Qed.

Lemma pes_ok iv l : ascending l -> exists b, points_equally_spaced iv [] l = Ok b.
Proof.
  intros A. unfold points_equally_spaced. cbn [length].
  destruct (Nat.eqb_spec (length l) 0) as [E|E]; [simpl; eauto|].
  destruct (Nat.ltb_spec (0 + length l) 2) as [E2|E2]; [simpl; eauto|].
  cbn [orb negb Nat.eqb].
  destruct l as [|a [|b l]]; simpl in E, E2; try lia.
  destruct (last_opt_cons a (b :: l)) as [z Ez].
  pose proof (py_nth_pos (a :: b :: l) 0 a eq_refl) as P0. change (Z.of_nat 0) with 0%Z in P0.
  pose proof (py_nth_pos (a :: b :: l) 1 b eq_refl) as P1. change (Z.of_nat 1) with 1%Z in P1.
  pose proof (py_nth_m1 _ _ Ez) as Pm.
  rewrite P0. cbn [rbind]. rewrite P1, Pm. destruct iv; cbn [rbind]; eauto.
Qed.

Definition notify (D : ival xq) : list (ev xq) :=
  if i_is_empty D then [] else [EvBegin D; EvEnd D].

Definition begun (D : ival xq) : list (ev xq) := if i_is_empty D then [] else [EvBegin D].

(** What a successful operation that stores [l] and notifies [D] does. *)
Record step_ok s l (D : ival xq) (s' : pts xq V) (evs : list (ev xq)) : Prop := {
  so_calm : calm s';
  so_pts : p_pts s' = l;
  so_force : p_force s' = p_force s;
  so_interp : p_interp s' = p_interp s;
  so_evs : evs = notify D
}.

(** A begun update whose interval is not empty, then stored points and the end. *)
Lemma finish_ok s l D b : idle (p_upd s) -> iok D -> i_is_empty D = false -> ascending l ->
  let '(s1, ev1) := p_begin s D in
  p_finish (set_eq s1 b) l D ev1 = (settled s l b, [EvBegin D; EvEnd D], Ok tt).
Proof.
  intros I HD HE A. unfold p_begin. rewrite begin_idle by auto. cbn [ev_begin].
  unfold p_finish. destruct (ascending_span_ok l A) as [h E]. rewrite E.
  unfold p_end. cbn [p_upd set_int set_pts set_eq set_upd]. rewrite end_begun by auto.
  unfold settled. rewrite E. reflexivity.
Qed.

Lemma p_set_cases s points (ud : option (ival xq)) : calm s -> ascending points ->
  (forall d, ud = Some d -> iok d /\ i_is_empty d = false) ->
  let D := set_domain s points ud in
  exists b, points_equally_spaced (p_int s) [] points = Ok b /\
  (if p_force s && negb b
   then exists s', p_set s points ud = (s', begun D, Err EExc) /\ p_pts s' = p_pts s /\ (i_is_empty D = false -> u_begin (p_upd s') = D)
   else exists s', p_set s points ud = (s', notify D, Ok tt) /\ step_ok s points D s' (notify D) /\ p_eq s' = b).
Proof.
  intros C A Hud D. assert (HD : iok D) by (apply iok_set_domain; auto; intros d E; now apply Hud).
  destruct (pes_ok (p_int s) points A) as [b Eb]. exists b. split; auto.
  assert (K : exists s0, idle (p_upd s0) /\ p_pts s0 = p_pts s /\ p_int s0 = p_int s /\ p_force s0 = p_force s /\
              p_interp s0 = p_interp s /\ (u_dom (p_upd s0) = u_dom (p_upd s) \/ u_dom (p_upd s0) = Some (pts_domain (p_pts s))) /\
              p_set s points ud =
              let '(s, ev1) := p_begin s0 D in
              match points_equally_spaced (p_int s) [] points with
              | Err e => (s, ev1, Err e)
              | Ok b => let s := set_eq s b in
                        if p_force s && negb b then (s, ev1, Err EExc) else p_finish s points D ev1
              end).
  { unfold p_set, D, set_domain. destruct ud as [d|].
    - exists s. repeat split; auto; try apply C.
    - exists (p_touch s). pose proof (calm_touch s C) as C'.
      split; [apply C'|]. repeat (split; [reflexivity|]). split.
      + right. unfold p_touch; simpl. now rewrite calm_dom.
      + rewrite <- p_touch_dom. destruct (head_opt points), (last_opt points); reflexivity. }
  destruct K as [s0 [I0 [H1 [H2 [H3 [H4 [H5 ->]]]]]]].
  destruct (i_is_empty D) eqn:HE.
  - unfold p_begin. rewrite begin_empty by auto. cbn [set_upd p_int]. rewrite H2, Eb. cbn [set_eq p_force].
    change (p_force (set_upd s0 (p_upd s0))) with (p_force s0). rewrite H3. destruct (p_force s && negb b); [eexists; split; [unfold begun; rewrite HE; reflexivity|split; [exact H1|congruence]]|].
    unfold p_finish. destruct (ascending_span_ok points A) as [h E]. rewrite E.
    unfold p_end. cbn [p_upd set_int set_pts set_eq set_upd]. rewrite end_empty by auto.
    unfold notify at 1. rewrite HE. eexists; split; [reflexivity|]. split; [|reflexivity].
    constructor; auto. split; [exact A|]. split; [exact E|]. split; [exact I0|].
    (* nothing stored before or after *)
    assert (p_pts s = [] /\ points = []) as [E1 E2].
    { unfold D, set_domain in HE. destruct ud as [d|]; [destruct (Hud d eq_refl); congruence|].
      assert (O : iok (p_dom s)) by (rewrite calm_dom by auto; apply iok_pts_domain, C).
      destruct (head_opt points) as [a|] eqn:E1; [destruct (last_opt points) as [z|] eqn:E2|].
      - rewrite <- (ends_ok points a z) in HE by auto.
        rewrite union2_is_empty in HE by (auto using iok_pts_domain).
        apply andb_true_iff in HE. destruct HE as [Ha Hb].
        apply pts_domain_empty_iff in Hb; auto. subst. discriminate.
      - apply last_opt_none in E2. subst. discriminate.
      - destruct points; [|discriminate]. rewrite calm_dom in HE by auto.
        apply pts_domain_empty_iff in HE; [auto|apply C]. }
    subst points. rewrite E1 in H5. destruct C as [_ [_ [_ HC]]]. rewrite E1 in HC.
    simpl. destruct H5 as [H5|H5]; rewrite H5; auto.
  - pose proof (finish_ok s0 points D b I0 HD HE A) as F.
    destruct (p_begin s0 D) as [s1 ev1] eqn:EB.
    assert (p_int s1 = p_int s /\ p_force s1 = p_force s /\ p_pts s1 = p_pts s /\ u_begin (p_upd s1) = D /\ ev1 = [EvBegin D]) as [-> [Ef [Ep [Eu Ee]]]].
    { unfold p_begin in EB. rewrite begin_idle in EB by auto. injection EB as <- <-. simpl. auto. }
    rewrite Eb. cbn [set_eq p_force]. rewrite Ef.
    destruct (p_force s && negb b); [eexists; split; [unfold begun; rewrite HE, Ee; reflexivity|auto]|].
    rewrite F. unfold notify at 1. rewrite HE. eexists; split; [reflexivity|]. split; [|reflexivity].
    constructor; auto. now apply settled_calm.
Qed.

Lemma p_set_ok s points (ud : option (ival xq)) s' evs : calm s -> ascending points ->
  (forall d, ud = Some d -> iok d /\ i_is_empty d = false) ->
  p_set s points ud = (s', evs, Ok tt) ->
  step_ok s points (set_domain s points ud) s' evs /\
  points_equally_spaced (p_int s) [] points = Ok (p_eq s') /\ (p_force s = true -> p_eq s' = true).
Proof.
  intros C A H E. destruct (p_set_cases s points ud C A H) as [b [Eb K]].
  destruct (p_force s && negb b) eqn:F.
  - destruct K as [s2 [K _]]. rewrite K in E. discriminate.
  - destruct K as [s2 [K [Hs He]]]. rewrite K in E. injection E as <- <-. rewrite He.
    split; auto. split; auto. intros Hf. rewrite Hf in F. now destruct b.
Qed.

(** append_list *)
Lemma SSorted_app {A} (R : A -> A -> Prop) (l m : list A) :
  StronglySorted R l -> StronglySorted R m -> (forall x y, In x l -> In y m -> R x y) -> StronglySorted R (l ++ m).
Proof.
  induction 1 as [|a l Hl IH Ha]; intros Hm H; simpl; auto.
  constructor.
  - apply IH; auto. intros; apply H; simpl; auto.
  - apply Forall_app; split; auto. apply Forall_forall. intros y Hy. apply H; simpl; auto.
Qed.
Lemma SSorted_app_inv {A} (R : A -> A -> Prop) (l m : list A) :
  StronglySorted R (l ++ m) -> StronglySorted R l /\ StronglySorted R m /\ (forall x y, In x l -> In y m -> R x y).
Proof.
  induction l as [|a l IH]; simpl; intros H.
  - repeat split; auto; [constructor|intros; contradiction].
  - inversion H; subst. destruct (IH H2) as [I1 [I2 I3]]. apply Forall_app in H3. destruct H3 as [F1 F2].
    repeat split; auto; [now constructor|]. intros x y [->|Hx] Hy; auto. rewrite Forall_forall in F2. auto.
Qed.

Lemma ascending_app_iff l m : ascending (l ++ m) <->
  ascending l /\ ascending m /\ (forall x y, In x l -> In y m -> lt_x (fst x) (fst y)).
Proof.
  unfold ascending. rewrite Forall_app. split.
  - intros [[F1 F2] H]. apply SSorted_app_inv in H. tauto.
  - intros [[F1 H1] [[F2 H2] H]]. split; auto. now apply SSorted_app.
Qed.
Lemma ascending_fin l p : ascending l -> In p l -> exists q v, p = (Fin q, v).
Proof.
  intros [F _] H. rewrite Forall_forall in F. specialize (F p H). destruct p as [x v]. simpl in F. destruct F as [q ->]. eauto.
Qed.
Lemma ascending_last_ge l z p : ascending l -> last_opt l = Some z -> In p l -> le_x (fst p) (fst z).
Proof.
  intros A E H. destruct l as [|a l] using rev_ind; [contradiction|]. rewrite last_opt_app in E. injection E as ->.
  pose proof A as A0. apply ascending_app_iff in A. destruct A as [_ [_ A]]. apply in_app_iff in H. destruct H as [H|[->|[]]].
  - specialize (A p z H (or_introl eq_refl)).
    destruct (ascending_fin _ p A0) as [q [v ->]]; [apply in_or_app; auto|].
    destruct (ascending_fin _ z A0) as [q' [v' ->]]; [apply in_or_app; right; simpl; auto|].
    simpl in *. rewrite lt_x_fin in A. rewrite le_x_fin. qc_lra.
  - destruct (ascending_fin _ p A0) as [q [v ->]]; [apply in_or_app; right; simpl; auto|]. simpl. rewrite le_x_fin. qc_lra.
Qed.
Lemma ascending_head_le l z p : ascending l -> head_opt l = Some z -> In p l -> le_x (fst z) (fst p).
Proof.
  intros A E H. destruct l as [|a l]; [contradiction|]. injection E as ->.
  pose proof A as A0. destruct A as [F A]. inversion A; subst. destruct H as [->|H].
  - destruct (ascending_fin _ p A0) as [q [v ->]]; [simpl; auto|]. simpl. rewrite le_x_fin. qc_lra.
  - rewrite Forall_forall in H3. specialize (H3 p H).
    destruct (ascending_fin _ p A0) as [q [v ->]]; [simpl; auto|].
    destruct (ascending_fin _ z A0) as [q' [v' ->]]; [simpl; auto|].
    simpl in *. rewrite lt_x_fin in H3. rewrite le_x_fin. qc_lra.
Qed.
Lemma last_opt_in {A} (l : list A) z : last_opt l = Some z -> In z l.
Proof. rewrite last_opt_nth. apply nth_error_In. Qed.
Lemma head_opt_in {A} (l : list A) z : head_opt l = Some z -> In z l.
Proof. destruct l; simpl; intros H; [discriminate|]. injection H as ->. auto. Qed.

Lemma ascending_join l m z a : ascending l -> ascending m -> last_opt l = Some z -> head_opt m = Some a ->
  lt_x (fst z) (fst a) -> ascending (l ++ m).
Proof.
  intros A1 A2 E1 E2 L. apply ascending_app_iff. repeat split; try apply A1; try apply A2.
  intros x y Hx Hy. pose proof (ascending_last_ge l z x A1 E1 Hx) as H1. pose proof (ascending_head_le m a y A2 E2 Hy) as H2.
  destruct (ascending_fin l x A1 Hx) as [q1 [v1 ->]]. destruct (ascending_fin l z A1 (last_opt_in _ _ E1)) as [q2 [v2 ->]].
  destruct (ascending_fin m y A2 Hy) as [q3 [v3 ->]]. destruct (ascending_fin m a A2 (head_opt_in _ _ E2)) as [q4 [v4 ->]].
  simpl in *. rewrite le_x_fin in *. rewrite lt_x_fin in *. qc_lra.
Qed.

Lemma span_none l : ascending l -> span_interval l = Ok None -> (length l < 2)%nat.
Proof.
  intros A E. apply ascending_knots in A. destruct A as [qs K]. rewrite (span_interval_knots _ _ K) in E.
  rewrite (knots_len _ _ K). destruct (Nat.ltb_spec (length qs) 2); [auto|discriminate].
Qed.

Lemma pes_ok_app iv l m : ascending l -> span_interval l = Ok iv -> l <> [] -> m <> [] ->
  exists b, points_equally_spaced iv l m = Ok b.
Proof.
  intros A SI Hl Hm. unfold points_equally_spaced.
  destruct l as [|a0 l]; [congruence|]. destruct m as [|b m]; [congruence|]. cbn [length Nat.eqb orb negb].
  destruct (_ <? 2)%nat; [eauto|].
  destruct (last_opt_cons a0 l) as [z Ez]. destruct (last_opt_cons b m) as [y Ey].
  rewrite (py_nth_m1 _ _ Ez), (py_nth_m1 _ _ Ey). cbn [rbind].
  pose proof (py_nth_pos (b :: m) 0 b eq_refl) as P0. change (Z.of_nat 0) with 0%Z in P0.
  rewrite P0. destruct iv; cbn [rbind]; eauto.
  apply span_none in SI; auto. destruct l as [|a1 l]; cbn [length Nat.eqb rbind] in *; eauto. lia.
Qed.

Definition append_domain s (points : list (xq * V)) : ival xq :=
  match last_opt (p_pts s), last_opt points with
  | Some z, Some b => mkI (fst z) (fst b) true false
  | _, _ => i_empty
  end.

Lemma fin_nonempty a b so eo : (a < b)%Qc -> i_is_empty (mkI (Fin a) (Fin b) so eo) = false.
Proof.
  intros H. apply is_empty_e_false; [split; discriminate|]. unfold eempty; cbn [i_start i_end i_so i_eo].
  apply emb_fin_lt in H. intros K. decompose [and or] K; lra.
Qed.

Lemma p_append_list_cases s points : calm s -> p_pts s <> [] -> points <> [] -> ascending points ->
  let D := append_domain s points in
  (exists a z, head_opt points = Some a /\ last_opt (p_pts s) = Some z /\ le_x (fst a) (fst z) /\
     p_append_list s points = (s, [], Err EExc)) \/
  (ascending (p_pts s ++ points) /\ exists b, points_equally_spaced (p_int s) (p_pts s) points = Ok b /\
     iok D /\ i_is_empty D = false /\
     (if p_force s && negb b
      then exists s', p_append_list s points = (s', [EvBegin D], Err EExc) /\ p_pts s' = p_pts s /\ u_begin (p_upd s') = D
      else exists s', p_append_list s points = (s', notify D, Ok tt) /\
             step_ok s (p_pts s ++ points) D s' (notify D) /\ p_eq s' = b)).
Proof.
  intros C Hp Hn A D. pose proof C as [Ap [SI [I Hd]]].
  unfold p_append_list. destruct (p_pts s) as [|p0 ps] eqn:Eps; [congruence|]. rewrite <- Eps in *.
  assert (X : exists a b, head_opt points = Some a /\ last_opt points = Some b).
  { clear D. destruct points as [|a pt]; [congruence|]. destruct (last_opt_cons a pt) as [b Eb]. exists a, b; auto. }
  destruct X as [a [b [E1 Eb]]].
  destruct (last_opt_cons p0 ps) as [z Ez]. rewrite <- Eps in Ez.
  rewrite E1, Eb, Ez.
  destruct (ascending_fin _ z Ap (last_opt_in _ _ Ez)) as [qz [vz Hz]].
  destruct (ascending_fin _ a A (head_opt_in _ _ E1)) as [qa [va Ha]].
  destruct (ascending_fin _ b A (last_opt_in _ _ Eb)) as [qb [vb Hb]].
  destruct (fst a <=? fst z)%num eqn:L.
  - left. exists a, z. repeat split; auto.
  - right. assert (L' : (qz < qa)%Qc).
    { subst a z. cbn in L. apply Qcleb_false in L. exact L. }
    assert (AA : ascending (p_pts s ++ points)).
    { eapply ascending_join; eauto. subst. simpl. now apply lt_x_fin. }
    split; auto.
    destruct (pes_ok_app (p_int s) (p_pts s) points Ap SI) as [q Eq]; [congruence|congruence|].
    exists q. split; auto.
    assert (HD : D = mkI (Fin qz) (Fin qb) true false).
    { unfold D, append_domain. rewrite Ez, Eb, Hz, Hb. reflexivity. }
    assert (LB : (qz < qb)%Qc).
    { pose proof (ascending_head_le points a b A E1 (last_opt_in _ _ Eb)) as H. subst a b. simpl in H. rewrite le_x_fin in H. qc_lra. }
    assert (OD : iok D) by (rewrite HD; split; discriminate).
    assert (ND : i_is_empty D = false) by (rewrite HD; now apply fin_nonempty).
    split; auto. split; auto.
    assert (PD : pts_domain (p_pts s) = i_closed (fst p0) (fst z)).
    { apply ends_ok; auto. rewrite Eps. reflexivity. }
    rewrite p_touch_dom, calm_dom by auto.
    destruct (i_is_empty (pts_domain (p_pts s))) eqn:PE.
    { apply pts_domain_empty_iff in PE; auto. congruence. }
    assert (ED : mkI (i_end (pts_domain (p_pts s))) (fst b) true false = D).
    { rewrite PD. simpl. now rewrite HD, Hz, Hb. }
    rewrite ED.
    pose proof (calm_touch s C) as C'.
    pose proof (finish_ok (p_touch s) (p_pts s ++ points) D q) as F.
    destruct (p_begin (p_touch s) D) as [s1 ev1] eqn:EB.
    assert (p_int s1 = p_int s /\ p_force s1 = p_force s /\ p_pts s1 = p_pts s /\ u_begin (p_upd s1) = D /\ ev1 = [EvBegin D]) as [-> [Ef [Ep [Eu Ee]]]].
    { unfold p_begin in EB. rewrite begin_idle in EB by (auto; apply C'). injection EB as <- <-. simpl. auto. }
    rewrite Ep, Eq. cbn [set_eq p_force p_pts]. rewrite Ef.
    destruct (p_force s && negb q); [eexists; split; [rewrite Ee; reflexivity|auto]|].
    rewrite Ep, F by (auto; apply C'). unfold notify at 1. rewrite ND. eexists; split; [reflexivity|]. split; [|reflexivity].
    constructor; auto. now apply settled_calm.
Qed.
End Ops.
