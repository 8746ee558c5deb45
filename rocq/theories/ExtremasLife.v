(** An Extremas object whose source grows: the extremas are those of all the
    points, up to repetitions, and y is interpolated from them. *)
From Coq Require Import List ZArith QArith Qcanon Bool Lia Sorting.Sorted.
From Verif Require Import Base Num NumFacts Interval IntervalFacts Curve Points PointsSpec PointsIdx PointsOps PointsQuery PointsReset PointsCover PointsDec PointsMut Combine Scan ScanFacts ScanInv ScanSource Extremas ExtremasFold ExtremasUniq ExtremasVal ExtremasInv.
Import ListNotations.
Open Scope Qc_scope.

(** [rep es ls]: ls is es with some elements repeated on the spot. *)
Inductive rep {A} : list A -> list A -> Prop :=
| rep_nil : rep [] []
| rep_one p es ls : rep es ls -> rep (p :: es) (p :: ls)
| rep_more p es ls : rep (p :: es) ls -> rep (p :: es) (p :: ls).

Lemma rep_refl {A} (l : list A) : rep l l.
Proof. induction l; constructor; auto. Qed.
Lemma rep_snoc {A} (es ls : list A) p : rep es ls -> rep (es ++ [p]) (ls ++ [p]).
Proof. induction 1; cbn; [apply rep_one; constructor|now apply rep_one|now apply rep_more]. Qed.
Lemma rep_again {A} (es ls : list A) p : rep (es ++ [p]) ls -> rep (es ++ [p]) (ls ++ [p]).
Proof.
  intros H. remember (es ++ [p]) as t eqn:E. revert es E. induction H as [|a t ls H IH|a t ls H IH]; intros es E.
  - destruct es; discriminate.
  - destruct es as [|b es]; cbn in E; injection E as -> ->.
    + inversion H; subst. cbn. apply rep_more. apply rep_one. constructor.
    + cbn. apply rep_one. apply (IH es eq_refl).
  - cbn. apply rep_more. eapply IH; eauto.
Qed.
Lemma rep_in {A} (es ls : list A) x : rep es ls -> In x ls -> In x es.
Proof. induction 1; cbn; intros I; try tauto; destruct I as [->|I]; auto. Qed.
Lemma rep_in_r {A} (es ls : list A) x : rep es ls -> In x es -> In x ls.
Proof. induction 1; cbn; intros I; [tauto|destruct I as [->|I]; auto|right; auto]. Qed.
Lemma rep_nil_l {A} (ls : list A) : rep [] ls -> ls = [].
Proof. inversion 1; auto. Qed.
Lemma rep_nil_r {A} (es : list A) : rep es [] -> es = [].
Proof. inversion 1; auto. Qed.
Lemma rep_head {A} (es ls : list A) : rep es ls -> head_opt ls = head_opt es.
Proof. destruct 1; reflexivity. Qed.
Lemma last_opt_cons2 {A} (a b : A) l : last_opt (a :: b :: l) = last_opt (b :: l).
Proof. change (a :: b :: l) with ([a] ++ b :: l). apply last_opt_app2. discriminate. Qed.
Lemma rep_last {A} (es ls : list A) : rep es ls -> last_opt ls = last_opt es.
Proof.
  induction 1 as [|p es ls H IH|p es ls H IH]; auto.
  - destruct es as [|b es]; [inversion H; reflexivity|]. destruct ls as [|c ls]; [inversion H|]. rewrite !last_opt_cons2. exact IH.
  - destruct ls as [|c ls]; [inversion H|]. rewrite last_opt_cons2. exact IH.
Qed.
(** different neighbours are neighbours in both *)
Lemma rep_next {A} (es ls : list A) : rep es ls -> forall l1 a b l2, ls = l1 ++ a :: b :: l2 -> a = b \/ exists e1 e2, es = e1 ++ a :: b :: e2.
Proof.
  induction 1 as [|p es ls H IH|p es ls H IH]; intros l1 a b l2 E.
  - destruct l1; discriminate.
  - destruct l1 as [|c l1]; cbn in E; injection E as -> ->.
    + right. destruct es as [|d es]; [inversion H|]. exists [], es. apply rep_head in H. injection H as <-. reflexivity.
    + destruct (IH l1 a b l2 eq_refl) as [?|(e1 & e2 & ->)]; auto. right. exists (c :: e1), e2. reflexivity.
  - destruct l1 as [|c l1]; cbn in E; injection E as -> ->.
    + left. apply rep_head in H. injection H as <-. reflexivity.
    + destruct (IH l1 a b l2 eq_refl) as [?|(e1 & e2 & X)]; auto. right. exists e1, e2. exact X.
Qed.
Definition xle (p q : Qc * Qc) : Prop := fst p <= fst q.
Lemma rep_sorted es ls : rep es ls -> StronglySorted xlt es -> StronglySorted xle ls.
Proof.
  induction 1 as [|p es ls H IH|p es ls H IH]; intros S.
  - constructor.
  - inversion S; subst. constructor; auto. rewrite Forall_forall in *. intros q I. apply Qclt_le_weak. apply H3. eapply rep_in; eauto.
  - constructor; auto. rewrite Forall_forall. intros q I. apply (rep_in _ _ _ H) in I. inversion S; subst. rewrite Forall_forall in H3.
    destruct I as [->|I]; [apply Qcle_refl|]. apply Qclt_le_weak. now apply H3.
Qed.

(** ** scanned_y over a list with repetitions *)
Lemma sorted_nth ls : StronglySorted xle ls -> forall i j p q, nth_error ls i = Some p -> nth_error ls j = Some q -> (i <= j)%nat -> fst p <= fst q.
Proof.
  induction 1 as [|a ls S IH F]; intros i j p q N1 N2 L; [destruct i; discriminate|]. destruct i as [|i], j as [|j]; cbn in *; try lia.
  - injection N1 as <-. injection N2 as <-. apply Qcle_refl.
  - injection N1 as <-. rewrite Forall_forall in F. apply F. eapply nth_error_In; eauto.
  - eapply IH; eauto. lia.
Qed.
Lemma bisect_right_weak (es : list (Qc * Qc)) q : StronglySorted xle es ->
  exists i, bisect_right (map fqp es) (Fin q) = Ok (Z.of_nat i) /\ (i <= length es)%nat /\
    (forall j p, nth_error es j = Some p -> (j < i)%nat -> fst p <= q) /\
    (forall j p, nth_error es j = Some p -> (i <= j)%nat -> q < fst p).
Proof.
  intros A. unfold bisect_right. rewrite map_length.
  assert (G : forall fuel lo hi, (Z.to_nat (hi - lo) < fuel)%nat -> (0 <= lo <= hi)%Z -> (hi <= Z.of_nat (length es))%Z ->
    (forall j p, nth_error es j = Some p -> (Z.of_nat j < lo)%Z -> fst p <= q) ->
    (forall j p, nth_error es j = Some p -> (hi <= Z.of_nat j)%Z -> q < fst p) ->
    exists i, bisect_right_loop fuel (map fqp es) (Fin q) lo hi = Ok (Z.of_nat i) /\ (i <= length es)%nat /\
     (forall j p, nth_error es j = Some p -> (j < i)%nat -> fst p <= q) /\ (forall j p, nth_error es j = Some p -> (i <= j)%nat -> q < fst p)).
  { induction fuel as [|f IH]; intros lo hi Hf Hb Hh Hl Hr; [lia|].
    cbn [bisect_right_loop]. destruct (lo <? hi)%Z eqn:E.
    - apply Z.ltb_lt in E.
      assert (M : (lo <= (lo + hi) / 2 < hi)%Z) by (split; [apply Z.div_le_lower_bound|apply Z.div_lt_upper_bound]; lia).
      set (mid := ((lo + hi) / 2)%Z) in *. clearbody mid.
      destruct (nth_error es (Z.to_nat mid)) as [v|] eqn:NV; [|apply nth_error_None in NV; lia].
      rewrite <- (Z2Nat.id mid) by lia. rewrite (py_nth_pos _ (Z.to_nat mid) (fqp v)) by now apply map_nth_error. cbn [rbind fst fqp]. cbn [n_ltb XQ xq_ltb].
      destruct (Qcltb q (fst v)) eqn:C; qb_simpl.
      + apply IH; try lia; auto. intros j p Nj Hj. apply Qclt_le_trans with (fst v); auto. apply (sorted_nth es A (Z.to_nat mid) j); auto. lia.
      + apply IH; try lia; auto. intros j p Nj Hj. apply Qcle_trans with (fst v); auto. apply (sorted_nth es A j (Z.to_nat mid)); auto. lia.
    - apply Z.ltb_ge in E. exists (Z.to_nat lo). rewrite Z2Nat.id by lia. split; [reflexivity|]. split; [lia|]. split.
      + intros j p Nj Hj. apply (Hl j); auto. lia.
      + intros j p Nj Hj. apply (Hr j); auto. lia. }
  destruct (G (S (length es)) 0%Z (Z.of_nat (length es))) as (i & E & L & B1 & B2); try lia.
  - intros j p Nj Hj. assert (j < length es)%nat by (apply nth_error_Some; congruence). lia.
  - exists i. auto.
Qed.
Theorem scanned_rep e es ls q : StronglySorted xlt es -> rep es ls -> x_ext e = map fqp ls -> x_int e = ext_interval (x_ext e) ->
  exists v, ex_scanned e (Fin q) = Ok v /\ value ILinear (map fop es) q v.
Proof.
  intros S RP E I.
  assert (IE : ext_interval (map fqp ls) = ext_interval (map fqp es)).
  { unfold ext_interval. now rewrite !head_map, !last_map, (rep_head _ _ RP), (rep_last _ _ RP). }
  unfold ex_scanned. rewrite I, E, IE.
  destruct (i_contains (ext_interval (map fqp es)) (Fin q)) eqn:C; cbn [negb].
  - apply int_contains in C; auto. destruct C as (a & z & A & Z & L1 & L2).
    rewrite (int_ends es a z A Z). cbn [i_start i_end n_eqb XQ xq_eqb].
    assert (A' : head_opt ls = Some a) by now rewrite (rep_head _ _ RP). assert (Z' : last_opt ls = Some z) by now rewrite (rep_last _ _ RP).
    destruct (Qceqb q (fst a)) eqn:Q1; qb_simpl.
    { rewrite (head_py ls a A'). cbn [rbind]. eexists. split; [reflexivity|]. apply val_knot. subst q.
      change (In (fop a) (map fop es)). apply in_map. now apply head_opt_in. }
    destruct (Qceqb q (fst z)) eqn:Q2; qb_simpl.
    { rewrite (last_py ls z Z'). cbn [rbind]. eexists. split; [reflexivity|]. apply val_knot. subst q.
      change (In (fop z) (map fop es)). apply in_map. now apply last_opt_in. }
    apply Qcle_lt_or_eq in L1, L2. destruct L1 as [L1|L1]; [|congruence]. destruct L2 as [L2|L2]; [|congruence].
    destruct (bisect_right_weak ls q (rep_sorted _ _ RP S)) as (i & B & Li & B1 & B2).
    destruct i as [|i].
    { exfalso. destruct ls as [|p ls]; [discriminate|]. injection A' as ->. specialize (B2 0%nat a eq_refl ltac:(lia)). qc_lra. }
    assert (Ni : (Datatypes.S i < length ls)%nat).
    { destruct (Nat.eq_dec (Datatypes.S i) (length ls)) as [X|]; [|lia]. exfalso. rewrite last_opt_nth in Z'.
      specialize (B1 _ _ Z' ltac:(lia)). qc_lra. }
    destruct (nth_error ls i) as [p1|] eqn:N1; [|apply nth_error_None in N1; lia].
    destruct (nth_error ls (Datatypes.S i)) as [p2|] eqn:N2; [|apply nth_error_None in N2; lia].
    assert (X1 : fst p1 <= q) by (eapply B1; eauto). assert (X2 : q < fst p2) by (eapply B2; eauto).
    rewrite B. cbn [rbind]. replace (Z.of_nat (Datatypes.S i) - 1)%Z with (Z.of_nat i) by lia.
    rewrite (py_nth_pos _ i (fqp p1)) by now apply map_nth_error. rewrite (py_nth_pos _ (Datatypes.S i) (fqp p2)) by now apply map_nth_error.
    cbn [rbind fqp fst snd n_div n_sub XQ xq_sub xq_div].
    destruct (Qceqb (fst p2 - fst p1) 0) eqn:D; qb_simpl.
    { exfalso. qc_lra. }
    cbn [rbind]. eexists. split; [reflexivity|].
    apply Qcle_lt_or_eq in X1. destruct X1 as [X1|X1].
    + destruct (nth_split2 _ _ _ _ N1 N2) as (l1 & l2 & EL).
      destruct (rep_next _ _ RP l1 p1 p2 l2 EL) as [->|(e1 & e2 & ->)]; [exfalso; qc_lra|].
      apply (val_lerp _ _ _ _ (map fop e1) (fst p1) (Some (Fin (snd p1))) (fst p2) (Some (Fin (snd p2))) (map fop e2)); auto.
      rewrite map_app. reflexivity.
    + match goal with |- value _ _ _ (Some ?v) => replace v with (Fin (snd p1)) end.
      * apply val_knot. subst q. change (In (fop p1) (map fop es)). apply in_map. apply (rep_in _ _ _ RP). eapply nth_error_In; eauto.
      * unfold n_one. cbn. f_equal. change (QcofZ 1) with 1. subst q. field. auto.
  - exists None. split; [reflexivity|]. change (@None xq) with (@v_none xq (option xq) NumVal). apply val_outside.
    destruct es as [|p es0]; [left; intros p []|]. set (es := p :: es0) in *.
    destruct (last_opt_some es) as [z Z]; [discriminate|].
    destruct (Qclt_le_dec q (fst p)) as [L|L].
    + left. intros x X. apply in_map_iff in X. destruct X as (y & <- & Iy). apply lt_x_fin.
      apply (Qclt_le_trans _ (fst p)); auto. apply (first_min es); auto.
    + right. intros x X. apply in_map_iff in X. destruct X as (y & <- & Iy). apply lt_x_fin.
      destruct (Qclt_le_dec (fst z) q) as [L2|L2].
      * apply (Qcle_lt_trans _ (fst z)); auto. apply (last_max es); auto.
      * exfalso. assert (i_contains (ext_interval (map fqp es)) (Fin q) = true) by (apply int_contains; auto; exists p, z; auto). congruence.
Qed.

(** ** One point, with any list of extremas *)
Section Effect.
Context (dev : Qc) (Hd : 0 <= dev) (R : Qc -> option Qc).
Notation deviates := (deviates dev R).
Notation above := (above R).
Notation below := (below R).
Notation extremas_of := (extremas_of dev R).

(** what a point adds to the extremas, and the new possible extrema *)
Inductive eff (s : spt) : option (Qc * Qc) -> list (Qc * Qc) -> option (Qc * Qc) -> Prop :=
| eff_skip poss : selects dev R [s] [] -> eff s poss [] poss
| eff_first y : snd s = Some y -> deviates (fst s, y) -> above (fst s, y) \/ below (fst s, y) -> eff s None [] (Some (fst s, y))
| eff_keep p y : snd s = Some y -> deviates (fst s, y) ->
    (above p /\ above (fst s, y) /\ y <= snd p) \/ (below p /\ below (fst s, y) /\ snd p <= y) -> eff s (Some p) [] (Some p)
| eff_up p y : snd s = Some y -> deviates (fst s, y) ->
    (above p /\ above (fst s, y) /\ snd p < y) \/ (below p /\ below (fst s, y) /\ y < snd p) -> eff s (Some p) [] (Some (fst s, y))
| eff_turn p y : snd s = Some y -> deviates (fst s, y) ->
    (above p /\ below (fst s, y)) \/ (below p /\ above (fst s, y)) -> eff s (Some p) [p] (Some (fst s, y)).

Lemma scan_effect e ls poss s : ref_nonzero R s -> holds R e ls poss -> (forall p, poss = Some p -> above p \/ below p) ->
  exists e' add poss', extrema_scan (Fin dev) (ref_fun R) e (Fin (fst s)) (option_map Fin (snd s)) = (e', Ok tt) /\
    eff s poss add poss' /\ holds R e' (ls ++ add) poss' /\
    x_cur e' = x_cur e /\ x_start e' = x_start e /\ x_upd e' = x_upd e.
Proof.
  intros NZ H PS. destruct s as [x [y|]]; cbn [fst snd option_map extrema_scan].
  2:{ exists e, [], poss. rewrite app_nil_r. split; [reflexivity|]. split; [apply eff_skip; constructor; constructor|auto]. }
  cbn [ref_fun]. unfold ref_nonzero in NZ. cbn in NZ. destruct (R x) as [y0|] eqn:Ex; cbn [option_map].
  2:{ exists e, [], poss. rewrite app_nil_r. split; [reflexivity|]. split; [|auto]. apply eff_skip. apply sel_near; [|constructor].
      intros (y1 & E1 & _). cbn in E1. congruence. }
  assert (Z : y0 <> 0) by (intros ->; apply NZ; congruence).
  cbn [n_div XQ xq_div]. destruct (Qceqb y0 0) eqn:EZ; qb_simpl; [contradiction|].
  rewrite devb_abs. destruct (devb dev y y0) eqn:DV; cbn [negb].
  2:{ exists e, [], poss. rewrite app_nil_r. split; [reflexivity|]. split; [|auto]. apply eff_skip. apply sel_near; [|constructor].
      rewrite <- (devb_iff dev R x y y0 Ex). congruence. }
  pose proof (proj1 (devb_iff dev R x y y0 Ex) DV) as DD. pose proof (dev_phase dev y y0 Hd Z DV) as PH.
  assert (AB : forall q, above (x, q) <-> y0 < q).
  { intros q. split; [intros (y1 & E1 & L)|intros L; exists y0; auto]. cbn in *. rewrite Ex in E1. now injection E1 as <-. }
  assert (BB : forall q, below (x, q) <-> q < y0).
  { intros q. split; [intros (y1 & E1 & L)|intros L; exists y0; auto]. cbn in *. rewrite Ex in E1. now injection E1 as <-. }
  assert (SD : above (x, y) \/ below (x, y)).
  { rewrite AB, BB. destruct (Qclt_le_dec y0 y) as [L|L]; auto. right. apply Qcle_lt_or_eq in L. destruct L; congruence. }
  destruct H as [HE HI HP HF]. rewrite HP, HF. destruct poss as [[px py]|]; cbn [option_map].
  2:{ eexists _, [], (Some (x, y)). split; [reflexivity|]. rewrite app_nil_r. split; [apply (eff_first (x, Some y) y); auto|].
      split; [|auto]. constructor; auto. cbn. unfold phase_of. cbn. now rewrite Ex. }
  specialize (PS (px, py) eq_refl).
  cbn [fqp fst snd]. unfold phase_of at 1. cbn [fst snd]. unfold fqp. cbn [fst snd].
  destruct (R px) as [pr|] eqn:Ep; cbn [option_map].
  2:{ exfalso. destruct PS as [(? & E & _)|(? & E & _)]; cbn in E; congruence. }
  assert (PA : above (px, py) <-> pr < py).
  { split; [intros (y1 & E1 & L)|intros L; exists pr; auto]. cbn in *. rewrite Ep in E1. now injection E1 as <-. }
  assert (PB : below (px, py) <-> py < pr).
  { split; [intros (y1 & E1 & L)|intros L; exists pr; auto]. cbn in *. rewrite Ep in E1. now injection E1 as <-. }
  cbn [n_sub n_mul n_ltb n_zero n_ofZ XQ xq_sub xq_mul xq_ltb]. unfold n_zero. cbn [n_ofZ XQ xq_sub xq_mul xq_ltb].
  change (QcofZ 0) with 0. rewrite AB, BB in SD. rewrite PA, PB in PS.
  destruct (Qcltb ((py - pr) * (y - y0)) 0) eqn:T; qb_simpl.
  - unfold confirm. rewrite HP. cbn [option_map]. unfold did_update, xset_poss. cbn [x_start x_cur x_ext x_int x_upd].
    eexists _, [(px, py)], (Some (x, y)). split; [reflexivity|]. cbn [x_start x_cur x_ext x_int x_upd x_poss x_phase].
    split. { apply (eff_turn (x, Some y) (px, py) y); auto. cbn [fst snd]. rewrite AB, BB, PA, PB. destruct SD, PS; auto; exfalso; qc_nra. }
    split; [|auto]. constructor; auto.
    + cbn [x_ext]. rewrite HE, map_app. reflexivity.
    + cbn. unfold phase_of. cbn. now rewrite Ex.
  - assert (SS : (pr < py /\ y0 < y) \/ (py < pr /\ y < y0)) by (destruct SD, PS; auto; exfalso; qc_nra).
    destruct ((Qcltb 0 (y - y0) && Qcltb py y || Qcltb (y - y0) 0 && Qcltb y py)%bool) eqn:MM.
    + eexists _, [], (Some (x, y)). split; [reflexivity|]. rewrite app_nil_r. split.
      * apply (eff_up (x, Some y) (px, py) y); auto. cbn [fst snd]. rewrite PA, PB, AB, BB.
        apply orb_true_iff in MM. rewrite !andb_true_iff, !Qcltb_true in MM.
        destruct MM as [[? ?]|[? ?]], SS as [[? ?]|[? ?]]; auto; exfalso; qc_lra.
      * split; [|auto]. constructor; auto. cbn. unfold phase_of. cbn. now rewrite Ex.
    + exists e, [], (Some (px, py)). split; [reflexivity|]. rewrite app_nil_r. split.
      * apply (eff_keep (x, Some y) (px, py) y); auto. cbn [fst snd]. rewrite PA, PB, AB, BB.
        apply orb_false_iff in MM. rewrite !andb_false_iff, !Qcltb_false in MM.
        destruct MM as [M1 M2], SS as [[? ?]|[? ?]]; [left|right]; repeat split; auto.
        -- destruct M1; auto. exfalso; qc_lra.
        -- destruct M2; auto. exfalso; qc_lra.
      * split; [|auto]. constructor; auto.
Qed.

Lemma eff_extremas l es poss s add poss' : extremas_of l es poss -> eff s poss add poss' -> extremas_of (l ++ [s]) (es ++ add) poss'.
Proof.
  intros X E. destruct s as [x v]. destruct E; cbn [fst snd] in *; rewrite ?app_nil_r; subst.
  - now apply ext_skip.
  - now apply ext_first.
  - eapply ext_same_keep; eauto.
  - eapply ext_same_more; eauto.
  - eapply ext_turn; eauto.
Qed.
Lemma eff_exists l es poss s : ref_nonzero R s -> extremas_of l es poss -> exists add poss', eff s poss add poss'.
Proof.
  intros RN X. destruct (holds_some dev R es poss) as [e H]; auto.
  destruct (scan_effect e es poss s RN H) as (_ & add & poss' & _ & E & _); [|eauto].
  intros p ->. eapply poss_side; eauto.
Qed.
(** a possible extrema is only given up for a later one *)
Lemma poss_later l2 : forall l1 es p z t p2, StronglySorted slt (l1 ++ l2) -> Forall (ref_nonzero R) l2 ->
  extremas_of l1 es (Some p) -> extremas_of (l1 ++ l2) (es ++ z :: t) p2 -> fst p <= fst z.
Proof.
  induction l2 as [|s l2 IH]; intros l1 es p z t p2 S RN X X2.
  - exfalso. rewrite app_nil_r in X2. destruct (extremas_unique dev R _ _ _ _ _ X X2) as [E _].
    apply (f_equal (@length _)) in E. rewrite app_length in E. cbn in E. lia.
  - inversion RN as [|? ? R1 R2]; subst. destruct (eff_exists l1 es (Some p) s R1 X) as (add & po & Ef).
    pose proof (eff_extremas l1 es (Some p) s add po X Ef) as X1. change (s :: l2) with ([s] ++ l2) in S, X2. rewrite app_assoc in S, X2.
    assert (LS : forall y, In (fst p, Some y) l1 -> fst p <= fst s).
    { intros y I. apply Qclt_le_weak. clear -S I. induction l1 as [|a l1 IH]; [destruct I|]. cbn in S. inversion S; subst. destruct I as [->|I]; auto.
      rewrite Forall_forall in H2. apply (H2 s). rewrite <- app_assoc. apply in_or_app. right. now left. }
    assert (PI : fst p <= fst s).
    { assert (S1 : StronglySorted slt l1).
      { clear -S. rewrite <- app_assoc in S. induction l1; constructor; inversion S; subst; auto. rewrite Forall_forall in *. intros b Ib. apply H2. apply in_or_app. now left. }
      destruct (extremas_sound dev R _ _ _ S1 X) as (_ & _ & F). destruct (F p eq_refl) as (I & _). apply (LS _ I). }
    inversion Ef; subst; rewrite ?app_nil_r in X1.
    + eapply IH; eauto.
    + eapply IH; eauto.
    + apply (Qcle_trans _ (fst s)); auto. eapply (IH _ _ (fst s, y)); eauto.
    + destruct (extremas_prefix dev R _ _ _ _ _ _ Hd R2 X1 X2) as [t' Et]. rewrite <- app_assoc in Et. apply app_inv_head in Et.
      cbn in Et. injection Et as -> _. apply Qcle_refl.
Qed.
(** back to the last extrema *)
Lemma selects_split l : forall s1 z s2, selects dev R l (s1 ++ z :: s2) -> exists l1 l2, l = l1 ++ (fst z, Some (snd z)) :: l2 /\ selects dev R l1 s1 /\ deviates z.
Proof.
  induction l as [|a l IH]; intros s1 z s2 H.
  - inversion H. destruct s1; discriminate.
  - inversion H; subst.
    + destruct s1 as [|b s1].
      * cbn in *. match goal with E : _ :: _ = _ :: _ |- _ => injection E as <- <- end. exists [], l. split; [reflexivity|]. split; [constructor|auto].
      * cbn in *. match goal with E : _ :: _ = _ :: _ |- _ => injection E as <- -> end.
        destruct (IH s1 z s2) as (l1 & l2 & -> & S1 & D); auto. eexists (_ :: l1), l2. split; [reflexivity|]. split; auto. constructor; auto.
    + destruct (IH s1 z s2) as (l1 & l2 & -> & S1 & D); auto. eexists (_ :: l1), l2. split; [reflexivity|]. split; auto. constructor; auto.
    + destruct (IH s1 z s2) as (l1 & l2 & -> & S1 & D); auto. eexists (_ :: l1), l2. split; [reflexivity|]. split; auto. apply sel_near; auto.
Qed.
Lemma rewind l es z p : extremas_of l (es ++ [z]) p -> exists l1 l2, l = l1 ++ (fst z, Some (snd z)) :: l2 /\ extremas_of (l1 ++ [(fst z, Some (snd z))]) es (Some z).
Proof.
  intros (sel & runs & Sl & Cc & Al & PP). destruct p as [p|].
  2:{ destruct PP as [_ E]. destruct es; discriminate. }
  destruct PP as (conf & cur & -> & F & _). apply Forall2_app_inv_l in F. destruct F as (c1 & c2 & F1 & F2 & ->).
  inversion F2 as [|? r ? ? Pk F3]; subst. inversion F3; subst. destruct Pk as (a & b & -> & Pk).
  rewrite !concat_app in Sl. cbn in Sl. rewrite !app_nil_r, <- !app_assoc in Sl. cbn in Sl. rewrite app_assoc in Sl.
  destruct (selects_split l (concat c1 ++ a) z _ Sl) as (l1 & l2 & -> & S1 & D). exists l1, l2. split; auto.
  assert (AL1 : alternate R (c1 ++ [a ++ z :: b])).
  { intros i r1 r2 N1 N2. apply (Al i r1 r2); rewrite nth_error_app1; auto; apply nth_error_Some; congruence. }
  exists ((concat c1 ++ a) ++ [z]), (c1 ++ [a ++ [z]]). split.
  - apply selects_app; auto. destruct z; apply sel_take; [auto|constructor].
  - split; [rewrite concat_snoc, app_assoc; reflexivity|]. split.
    + apply (alternate_last R c1 (a ++ z :: b)); auto. split; intros FF; apply Forall_app in FF; destruct FF as [FA FB]; inversion FB; subst; apply Forall_app; split; auto.
    + exists c1, (a ++ [z]). split; auto. split; auto. exists a, []. split; auto.
      destruct Pk as [(FF & A1 & _)|(FF & A1 & _)]; [left|right]; (split; [|split; [exact A1|constructor]]);
        apply Forall_app in FF; destruct FF as [FA FB]; inversion FB; subst; apply Forall_app; split; auto.
Qed.
(** the only run *)
Lemma only_run l z x y : extremas_of l [] (Some z) -> In (x, Some y) l -> deviates (x, y) ->
  (above z /\ above (x, y) /\ y <= snd z) \/ (below z /\ below (x, y) /\ snd z <= y).
Proof.
  intros (sel & runs & Sl & Cc & Al & conf & cur & -> & F & Pk) I D. inversion F; subst. cbn in *. rewrite app_nil_r in *.
  assert (IS : In (x, y) cur).
  { clear -Sl I D. induction Sl as [|a b l s D' Sl IH|a l s Sl IH|a b l s D' Sl IH]; [destruct I| | |].
    - destruct I as [E|I]; [injection E as -> ->; now left|right; auto].
    - destruct I as [E|I]; [discriminate|auto].
    - destruct I as [E|I]; [injection E as -> ->; contradiction|auto]. }
  destruct Pk as (a & b & -> & Pk). destruct Pk as [(FF & A1 & A2)|(FF & A1 & A2)]; [left|right]; rewrite Forall_forall in FF, A1, A2;
    (split; [apply FF; apply in_or_app; right; now left|]); (split; [now apply FF|]).
  - apply in_app_or in IS. destruct IS as [IS|[->|IS]]; [apply Qclt_le_weak, (A1 _ IS)|apply Qcle_refl|apply (A2 _ IS)].
  - apply in_app_or in IS. destruct IS as [IS|[->|IS]]; [apply Qclt_le_weak, (A1 _ IS)|apply Qcle_refl|apply (A2 _ IS)].
Qed.
End Effect.

(** ** Histories *)
Section Life.
Context (m : Qc) (Hm : 0 < m) (dev : Qc) (Hd : 0 <= dev).
Notation own := (Some (Fin m)).

Section Ref.
Context (R : Qc -> option Qc).
Notation extremas_of := (extremas_of dev R).
Notation ex_source := (ex_source m R).

(** The k first points are scanned; the list ls and the possible extrema are
    those of the first k points; or, after an update, the scan has gone back: to
    the last extrema, which is the possible one again until the next run begins,
    or to the beginning, with the possible extrema of K points still there. *)
Inductive mode (l : list spt) (k : nat) : list (Qc * Qc) -> option (Qc * Qc) -> Prop :=
| mode_plain es ls poss : extremas_of (firstn k l) es poss -> rep es ls -> mode l k ls poss
| mode_back es z ls K pK : extremas_of (firstn k l) es (Some z) -> rep (es ++ [z]) ls -> (k < K)%nat -> (K <= length l)%nat ->
    extremas_of (firstn K l) (es ++ [z]) pK -> mode l k ls (Some z)
| mode_over z K : (k < K)%nat -> (K <= length l)%nat -> extremas_of (firstn K l) [] (Some z) -> mode l k [] (Some z).

Lemma firstn_split {A} (l : list A) k K : (k <= K)%nat -> exists t, firstn K l = firstn k l ++ t.
Proof.
  intros L. exists (firstn (K - k) (skipn k l)). rewrite <- (firstn_skipn k l) at 1. rewrite firstn_app.
  destruct (le_lt_dec k (length l)) as [H|H].
  - rewrite firstn_length, Nat.min_l by lia. f_equal. rewrite firstn_firstn. f_equal. lia.
  - rewrite !(skipn_all2 l) by lia. rewrite !firstn_nil, !app_nil_r. rewrite firstn_firstn. f_equal. lia.
Qed.
Lemma forall_firstn {A} (P : A -> Prop) l k : Forall P l -> Forall P (firstn k l).
Proof. rewrite !Forall_forall. intros F x I. apply F. eapply in_firstn; eauto. Qed.
Lemma mode_side l k ls poss p : mode l k ls poss -> poss = Some p -> above R p \/ below R p.
Proof. intros M E. destruct M; subst; [|injection E as <-..]; eapply poss_side; eauto. Qed.

Lemma mode_step l k s ls poss add poss' : StronglySorted slt l -> Forall (ref_nonzero R) l -> nth_error l k = Some s ->
  mode l k ls poss -> eff dev R s poss add poss' -> mode l (S k) (ls ++ add) poss'.
Proof.
  intros SS RN N M E. assert (Lk : (k < length l)%nat) by (apply nth_error_Some; congruence).
  assert (FS := firstn_snoc _ _ _ N). destruct M as [es ls poss X RP|es z ls K pK X RP L1 L2 XK|z K L1 L2 XK].
  - pose proof (eff_extremas dev R _ _ _ _ _ _ X E) as X'. rewrite <- FS in X'. apply (mode_plain l (S k) (es ++ add)); auto.
    inversion E; subst; rewrite ?app_nil_r; auto. now apply rep_snoc.
  - pose proof (eff_extremas dev R _ _ _ _ _ _ X E) as X'. rewrite <- FS in X'.
    destruct (firstn_split l (S k) K L1) as [t ET].
    assert (ST : StronglySorted slt (firstn (S k) l ++ t)) by (rewrite <- ET; now apply firstn_sorted).
    assert (RT : Forall (ref_nonzero R) t) by (pose proof (forall_firstn _ l K RN) as F; rewrite ET in F; apply Forall_app in F; apply F).
    assert (STAY : extremas_of (firstn (S k) l) es (Some z) -> mode l (S k) (ls ++ []) (Some z)).
    { intros X1. rewrite app_nil_r. apply (mode_back l (S k) es z ls K pK); auto.
      destruct (Nat.eq_dec (S k) K) as [EK|]; [|lia]. exfalso. subst K.
      destruct (extremas_unique dev R _ _ _ _ _ X1 XK) as [E1 _]. apply (f_equal (@length _)) in E1. rewrite app_length in E1. cbn in E1. lia. }
    inversion E; subst; rewrite ?app_nil_r in X'.
    + auto.
    + auto.
    + exfalso. rewrite ET in XK. pose proof (poss_later dev Hd R t (firstn (S k) l) es (fst s, y) z [] pK ST RT X' XK) as LE. cbn in LE.
      destruct (extremas_sound dev R _ _ _ (firstn_sorted l k SS) X) as (_ & _ & F). destruct (F z eq_refl) as (I & _).
      assert (fst z < fst s); [|qc_lra]. pose proof (firstn_sorted l (S k) SS) as S2. rewrite FS in S2. clear -S2 I.
      induction (firstn k l) as [|a t IH]; [destruct I|]. cbn in S2. inversion S2; subst. destruct I as [->|I]; auto.
      rewrite Forall_forall in H2. apply (H2 s). apply in_or_app. right. now left.
    + apply (mode_plain l (S k) (es ++ [z])); auto. now apply rep_again.
  - assert (Is : In s (firstn K l)).
    { destruct (firstn_split l (S k) K L1) as [t ET]. rewrite ET, FS. apply in_or_app. left. apply in_or_app. right. now left. }
    assert (G : add = [] /\ poss' = Some z).
    { inversion E; subst; auto; exfalso; (assert (Iy : In (fst s, Some y) (firstn K l)) by (destruct s as [sx sy]; cbn [fst snd] in *; subst sy; exact Is));
        destruct (only_run dev R _ z (fst s) y XK Iy) as [(Z1 & Z2 & Z3)|(Z1 & Z2 & Z3)]; auto.
      - destruct H2 as [(A1 & A2 & A3)|(A1 & A2 & A3)]; [qc_lra|]. first [apply (sides_excl R z); assumption | apply (sides_excl R (fst s, y)); assumption].
      - destruct H2 as [(A1 & A2 & A3)|(A1 & A2 & A3)]; [|qc_lra]. first [apply (sides_excl R z); assumption | apply (sides_excl R (fst s, y)); assumption].
      - destruct H2 as [(A1 & A2)|(A1 & A2)]; first [apply (sides_excl R z); assumption | apply (sides_excl R (fst s, y)); assumption].
      - destruct H2 as [(A1 & A2)|(A1 & A2)]; first [apply (sides_excl R z); assumption | apply (sides_excl R (fst s, y)); assumption]. }
    destruct G as [-> ->]. cbn. destruct (Nat.eq_dec (S k) K) as [EK|].
    + subst K. apply (mode_plain l (S k) []); auto. constructor.
    + apply (mode_over l (S k) z K); auto. lia.
Qed.

(** In every mode the list repeats a beginning of the extremas of all points. *)
Lemma mode_ext l k ls poss : StronglySorted slt l -> Forall (ref_nonzero R) l -> mode l k ls poss ->
  exists es, rep es ls /\ StronglySorted xlt es /\ (forall q, In q es -> In (fst q, Some (snd q)) (firstn k l)) /\
    (forall fes p, extremas_of l fes p -> (exists t, fes = es ++ t) /\ ((length l <= k)%nat -> fes = es)).
Proof.
  intros SS RN M.
  assert (PRE : forall K e p fes pf, extremas_of (firstn K l) e p -> extremas_of l fes pf -> exists t, fes = e ++ t).
  { intros K e p fes pf X F. rewrite <- (firstn_skipn K l) in F. apply (extremas_prefix dev R (firstn K l) (skipn K l) e p fes pf Hd); auto.
    rewrite <- (firstn_skipn K l) in RN. apply Forall_app in RN. apply RN. }
  destruct M as [es ls poss X RP|es z ls K pK X RP L1 L2 XK|z K L1 L2 XK].
  - destruct (extremas_sound dev R _ _ _ (firstn_sorted l k SS) X) as (S1 & I1 & _). exists es. split; auto. split; auto. split; [intros q Iq; apply (I1 q Iq)|].
    intros fes p F. split; [eapply PRE; eauto|]. intros L. rewrite firstn_all2 in X by lia. now destruct (extremas_unique dev R _ _ _ _ _ X F) as [-> _].
  - destruct (extremas_sound dev R _ _ _ (firstn_sorted l K SS) XK) as (S1 & _ & _). destruct (extremas_sound dev R _ _ _ (firstn_sorted l k SS) X) as (_ & I1 & I2).
    exists (es ++ [z]). split; auto. split; auto. split.
    + intros q Iq. apply in_app_or in Iq. destruct Iq as [Iq|[<-|[]]]; [apply (I1 q Iq)|apply (I2 z eq_refl)].
    + intros fes p F. split; [eapply PRE; eauto|lia].
  - exists []. split; [constructor|]. split; [constructor|]. split; [intros q []|]. intros fes p F. split; [eauto|lia].
Qed.

Record lx_inv (s : pts xq (option xq)) (l : list spt) (e : exs xq) (k : nat) : Prop := {
  lx_len : (k <= length l)%nat;
  lx_cur : x_cur e = option_map (fun p : spt => Fin (fst p)) (last_opt (firstn k l));
  lx_start : k = 0%nat \/ x_start e = None \/ x_start e = option_map (fun p : spt => Fin (fst p)) (head_opt l);
  lx_ext : exists ls p, holds R e ls p /\ mode l k ls p;
  lx_dom : u_dom (x_upd e) = None \/ u_dom (x_upd e) = Some (p_dom s);
  lx_idle : PointsOps.idle (x_upd e)
}.
Lemma ldom_ok s l e k : lx_inv s l e k -> exists e', ex_dom (p_dom s) e = (e', p_dom s) /\ lx_inv s l e' k /\
  x_cur e' = x_cur e /\ x_start e' = x_start e /\ x_ext e' = x_ext e /\ x_int e' = x_int e.
Proof.
  intros [L C St X D Id]. unfold ex_dom. destruct (u_dom (x_upd e)) as [d|] eqn:U.
  - exists e. destruct D as [D|D]; [discriminate|]. injection D as ->. split; auto. split; auto. constructor; auto.
  - eexists. split; [reflexivity|]. split; auto. constructor; auto; cbn.
    destruct X as (es & p & [] & X). exists es, p. split; auto. constructor; auto.
Qed.
Lemma linit_ok s l e x p : ex_source s l -> lx_inv s l e 0 -> head_opt l = Some p ->
  exists e', ex_init_scan (p_crv s) own e x = (e', Ok (Some (Fin (fst p)))) /\ lx_inv s l e' 0.
Proof.
  intros X I Hp. destruct (ldom_ok s l e 0 I) as (e' & E & I' & _). exists e'. split; auto.
  unfold ex_init_scan. cbn [c_dom p_crv]. rewrite E. pose proof (es_good _ _ _ _ X) as G. pose proof (proj1 G) as A.
  assert (D : p_dom s = pts_domain (p_pts s)) by (apply calm_dom, good_calm, G).
  assert (NE : l <> []) by (destruct l; discriminate).
  destruct (last_opt_some l NE) as [z Hz].
  assert (EO : p_dom s = mkI (Fin (fst p)) (Fin (fst z)) false false).
  { rewrite D. unfold pts_domain. rewrite (es_pts _ _ _ _ X), head_map, last_map, Hp, Hz. reflexivity. }
  assert (NE' : i_is_empty (p_dom s) = false).
  { destruct (i_is_empty (p_dom s)) eqn:Y; auto. rewrite D in Y. apply pts_domain_empty_iff in Y; auto.
    rewrite (es_pts _ _ _ _ X) in Y. destruct l; [congruence|discriminate]. }
  rewrite NE'. assert (NI : i_is_negative_infinite (p_dom s) = false) by (rewrite EO; reflexivity).
  rewrite NI. cbn [orb]. replace (i_start (p_dom s)) with (Fin (fst p)) by (rewrite EO; reflexivity).
  rewrite (source_dom m R s l p X) by now apply head_opt_in. reflexivity.
Qed.
Lemma rep_interval es ls : rep es ls -> ext_interval (map fqp ls) = ext_interval (map fqp es).
Proof. intros RP. unfold ext_interval. now rewrite !head_map, !last_map, (rep_head _ _ RP), (rep_last _ _ RP). Qed.
Lemma lstep_next s l e k p lim : ex_source s l -> lx_inv s l e (S k) -> nth_error l k = Some p ->
  ex_next (p_crv s) own e (Fin (fst p)) own lim = Ok (option_map (fun p : spt => Fin (fst p)) (nth_error l (S k))).
Proof.
  intros X I N. unfold ex_next. rewrite resolve_self. cbn [n_add XQ xq_add].
  pose proof (source_sorted m R s l X) as S0. pose proof (firstn_sorted l (S k) S0) as SS.
  destruct (lx_ext _ _ _ _ I) as (ls & po & H & M). rewrite (hd_int _ _ _ _ H), (hd_ext _ _ _ _ H).
  destruct (mode_ext l (S k) ls po S0 (es_ref _ _ _ _ X) M) as (es & RP & SE & IN & _). rewrite (rep_interval _ _ RP).
  destruct (i_contains (ext_interval (map fqp es)) (Fin (fst p + m))) eqn:C.
  - exfalso. apply int_contains in C; auto. destruct C as (a & z & _ & Z & _ & L2).
    pose proof (IN z (last_opt_in _ _ Z)) as J. rewrite (firstn_snoc _ _ _ N) in J, SS.
    assert (fst z <= fst p).
    { apply in_app_or in J. destruct J as [J|[J|[]]]; [|rewrite J; apply Qcle_refl].
      clear -SS J. apply Qclt_le_weak. induction (firstn k l) as [|b t IH]; [destruct J|]. cbn in SS. inversion SS; subst.
      destruct J as [->|J]; auto. rewrite Forall_forall in H2. apply (H2 p). apply in_or_app. right. now left. }
    qc_lra.
  - apply (source_next m Hm R s l k p lim); auto.
Qed.

Lemma map_fqp_inj l1 : forall l2, map fqp l1 = map fqp l2 -> l1 = l2.
Proof.
  induction l1 as [|a l1 IH]; intros [|b l2] A1; cbn in A1; try discriminate; auto.
  injection A1 as E1 E2 E3. f_equal; auto. destruct a, b; cbn in *; congruence.
Qed.
Lemma snoc_max (l : list spt) (w p : spt) : StronglySorted slt (l ++ [p]) -> In w (l ++ [p]) -> fst w <= fst p.
Proof.
  intros SS J. apply in_app_or in J. destruct J as [J|[->|[]]]; [|apply Qcle_refl].
  apply Qclt_le_weak. induction l as [|b t IH]; [destruct J|]. cbn in SS. inversion SS as [|? ? S1 F]; subst.
  destruct J as [->|J]; auto. rewrite Forall_forall in F. apply (F p). apply in_or_app. right. now left.
Qed.

Definition lfar (l : list spt) (e : exs xq) (q : Qc) (k : nat) : Prop :=
  k = length l \/ exists ls po z, holds R e ls po /\ last_opt ls = Some z /\ q <= fst z.

Lemma lloop_ok s l q : ex_source s l -> l <> [] -> forall fuel e k, lx_inv s l e k -> (length l - k < fuel)%nat ->
  exists e' k', ex_loop fuel (p_crv s) own (Fin dev) (ref_fun R) (Fin q) e = (e', Ok tt) /\ lx_inv s l e' k' /\ lfar l e' q k' /\ (k <= k')%nat /\
    (lfar l e q k -> k' = k /\ x_ext e' = x_ext e).
Proof.
  intros X NE. pose proof (source_sorted m R s l X) as SS. pose proof (es_ref _ _ _ _ X) as RN0.
  induction fuel as [|f IH]; intros e k I Lf; [lia|]. cbn [ex_loop].
  assert (STEP : forall e1 p, nth_error l k = Some p -> (x_start e1 = None \/ x_start e1 = option_map (fun p : spt => Fin (fst p)) (head_opt l)) ->
    (exists ls po, holds R e1 ls po /\ mode l k ls po) -> (u_dom (x_upd e1) = None \/ u_dom (x_upd e1) = Some (p_dom s)) -> PointsOps.idle (x_upd e1) ->
    exists e' k', (let '(e2, t) := extrema_scan (Fin dev) (ref_fun R) e1 (Fin (fst p)) (option_map Fin (snd p)) in
      match t with
      | Err er => (e2, Err er)
      | Ok _ => ex_loop f (p_crv s) own (Fin dev) (ref_fun R) (Fin q) (xset_cur e2 (Some (Fin (fst p))))
      end) = (e', Ok tt) /\ lx_inv s l e' k' /\ lfar l e' q k' /\ (k <= k')%nat).
  { intros e1 p N S1 (ls & po & H & M) D1 Id1. assert (Lk : (k < length l)%nat) by (apply nth_error_Some; congruence).
    assert (RN : ref_nonzero R p) by (rewrite Forall_forall in RN0; apply RN0; eapply nth_error_In; eauto).
    destruct (scan_effect dev Hd R e1 ls po p RN H) as (e2 & add & po2 & E2 & Ef & Hh & _ & S2 & U2).
    { intros p' Ep. eapply mode_side; eauto. }
    rewrite E2. pose proof (mode_step l k p ls po add po2 SS RN0 N M Ef) as M2.
    destruct (IH (xset_cur e2 (Some (Fin (fst p)))) (S k)) as (e' & k' & EE & I' & F' & L'); [|lia|].
    - constructor.
      + lia.
      + rewrite (last_firstn_spt _ _ _ N). reflexivity.
      + right. cbn [xset_cur x_start]. now rewrite S2.
      + exists (ls ++ add), po2. split; auto. destruct Hh. constructor; auto.
      + cbn [xset_cur x_upd]. now rewrite U2.
      + cbn [xset_cur x_upd]. now rewrite U2.
    - exists e', k'. split; [exact EE|]. split; [exact I'|]. split; [exact F'|lia]. }
  assert (STILL : forall z, nth_error l (k - 1) = Some z -> (0 < k < length l)%nat -> lfar l e q k -> fst z < q -> False).
  { intros z NZ K [->|(ls & po & w & Hh & Z & LQ)] L; [lia|]. destruct (lx_ext _ _ _ _ I) as (ls1 & p1 & Hh1 & M1).
    assert (EQ : ls1 = ls) by (apply map_fqp_inj; rewrite <- (hd_ext _ _ _ _ Hh1); apply Hh). subst ls1.
    destruct (mode_ext l k ls p1 SS RN0 M1) as (es & RP & SE & IN & _). rewrite (rep_last _ _ RP) in Z.
    pose proof (IN w (last_opt_in _ _ Z)) as J. pose proof (firstn_sorted l k SS) as SK.
    destruct k as [|j]; [lia|]. replace (S j - 1)%nat with j in NZ by lia. rewrite (firstn_snoc _ _ _ NZ) in J, SK.
    pose proof (snoc_max _ _ _ SK J) as LE. cbn [fst] in LE. qc_lra. }
  assert (ADD : forall (G : exs xq * res unit) (P : (exists e' k', G = (e', Ok tt) /\ lx_inv s l e' k' /\ lfar l e' q k' /\ (k <= k')%nat)), (lfar l e q k -> False) ->
    exists e' k', G = (e', Ok tt) /\ lx_inv s l e' k' /\ lfar l e' q k' /\ (k <= k')%nat /\ (lfar l e q k -> k' = k /\ x_ext e' = x_ext e)).
  { intros G (e' & k' & A1 & A2 & A3 & A4) NF. exists e', k'. repeat (split; [assumption|]). intros FF. now elim NF. }
  pose proof (lx_cur _ _ _ _ I) as CUR. destruct k as [|j].
  - assert (NF : lfar l e q 0 -> False).
    { intros [E0|(ls & po & w & Hh & Z & LQ)]; [destruct l; [now apply NE|discriminate]|]. destruct (lx_ext _ _ _ _ I) as (ls1 & p1 & Hh1 & M1).
      assert (EQ : ls1 = ls) by (apply map_fqp_inj; rewrite <- (hd_ext _ _ _ _ Hh1); apply Hh). subst ls1.
      destruct (mode_ext l 0 ls p1 SS RN0 M1) as (es & RP & SE & IN & _). rewrite (rep_last _ _ RP) in Z. exact (IN w (last_opt_in _ _ Z)). }
    cbn [firstn last_opt rev head_opt option_map] in CUR. rewrite CUR. cbn [option_map].
    destruct (head_opt_some l NE) as [p Hp]. destruct (linit_ok s l e (Fin q) p X I Hp) as (e1 & E1 & I1).
    rewrite CUR. rewrite E1. cbn [x_cur xset_start]. rewrite (lx_cur _ _ _ _ I1). cbn [firstn last_opt rev head_opt option_map].
    cbn [c_dom c_y p_crv]. rewrite (source_dom m R s l p X) by now apply head_opt_in. cbn [negb].
    rewrite (source_y m R s l p X) by now apply head_opt_in.
    apply ADD; [|exact NF]. apply STEP.
    + destruct l; [discriminate|]. exact Hp.
    + cbn [xset_start x_start]. right. now rewrite Hp.
    + destruct (lx_ext _ _ _ _ I1) as (es & po & [] & Xx). exists es, po. split; auto. constructor; auto.
    + apply I1.
    + apply I1.
  - assert (Lj : (j < length l)%nat) by (pose proof (lx_len _ _ _ _ I); lia).
    destruct (nth_error l j) as [z|] eqn:NZ; [|apply nth_error_None in NZ; lia].
    rewrite (last_firstn_spt _ _ _ NZ) in CUR. cbn [option_map] in CUR. rewrite CUR.
    assert (GO : exists e1 go, ex_continue (p_dom s) e (Fin (fst z)) (Fin q) = (e1, go) /\ lx_inv s l e1 (S j) /\
      x_cur e1 = x_cur e /\ (go = false -> lfar l e1 q (S j)) /\ x_ext e1 = x_ext e /\
      (go = true -> (S j < length l)%nat -> lfar l e q (S j) -> False)).
    { unfold ex_continue. destruct (n_ltb (Fin (fst z)) (Fin q)) eqn:LT.
      - exists e, true. split; [reflexivity|]. split; [exact I|]. split; [reflexivity|]. split; [discriminate|]. split; [reflexivity|].
        intros _ Lk FF. cbn [n_ltb XQ xq_ltb] in LT. qb_simpl. apply (STILL z); auto; [now replace (S j - 1)%nat with j by lia|lia].
      - destruct (ldom_ok s l e (S j) I) as (e1 & ED & I1 & C1 & _ & X1 & _). rewrite ED.
        rewrite (source_dom m R s l z X) by (eapply nth_error_In; eauto). cbn [negb].
        eexists _, _. split; [reflexivity|]. split; [exact I1|]. split; [exact C1|].
        destruct (lx_ext _ _ _ _ I1) as (ls & po & H & M).
        destruct (mode_ext l (S j) ls po SS RN0 M) as (es & RP & SE & _).
        split; [|split; [exact X1|]].
        2:{ intros G Lk [E0|(ls2 & po2 & w & Hh & Z & LQ)]; [lia|]. apply negb_true_iff in G.
            assert (EQ : ls = ls2) by (apply map_fqp_inj; rewrite <- (hd_ext _ _ _ _ H), X1; apply Hh). subst ls2.
            rewrite (hd_int _ _ _ _ H), (hd_ext _ _ _ _ H), (rep_interval _ _ RP) in G.
            assert (K : i_contains_gen false true (ext_interval (map fqp es)) (Fin q) = true); [|congruence].
            apply int_upto; [exact SE|]. exists w. split; auto. now rewrite <- (rep_last _ _ RP). }
        intros G. apply negb_false_iff in G.
        rewrite (hd_int _ _ _ _ H), (hd_ext _ _ _ _ H), (rep_interval _ _ RP) in G.
        apply int_upto in G; [|exact SE]. destruct G as (w & W & LW). right. exists ls, po, w. split; auto. split; auto. now rewrite (rep_last _ _ RP). }
    destruct GO as (e1 & go & EG & I1 & C1 & FG & X1 & NF). cbn [c_dom p_crv]. rewrite EG. destruct go.
    + rewrite C1, CUR. rewrite (lstep_next s l e1 j z _ X I1 NZ).
      destruct (nth_error l (S j)) as [p|] eqn:N; cbn [option_map].
      2:{ exists e1, (S j). split; auto. split; auto. split; auto. left. apply nth_error_None in N. lia. }
      apply ADD; [|apply NF; auto; apply nth_error_Some; congruence].
      assert (Ip : In p l) by (eapply nth_error_In; eauto).
      rewrite (source_dom m R s l p X Ip). cbn [negb]. rewrite C1, CUR.
      assert (LT : fst z < fst p).
      { destruct (nth_split2 _ _ _ _ NZ N) as (l1 & l2 & EL). clear -SS EL. subst l. induction l1 as [|b l1 IH]; inversion SS; subst; auto.
        inversion H2; subst. auto. }
      cbn [n_leb XQ xq_leb]. destruct (Qcleb (fst p) (fst z)) eqn:LE; qb_simpl; [exfalso; qc_lra|].
      cbn [c_y p_crv]. rewrite (source_y m R s l p X Ip). apply STEP; auto; try apply I1. destruct (lx_start _ _ _ _ I1) as [K|K]; [discriminate K|exact K].
    + exists e1, (S j). split; auto.
Qed.

(** scanning up to a point of the domain *)
Lemma lscan s l e k q fuel : ex_source s l -> lx_inv s l e k -> (length l < fuel)%nat -> i_contains (p_dom s) (Fin q) = true ->
  exists e' k', ex_scan fuel (p_crv s) own (Fin dev) (ref_fun R) (Fin q) e = (e', Ok tt) /\ lx_inv s l e' k' /\ lfar l e' q k' /\
    (lfar l e q k -> k' = k /\ x_ext e' = x_ext e).
Proof.
  intros X I Lf C. pose proof (source_sorted m R s l X) as SS.
  assert (NE : l <> []).
  { intros ->. apply span_dom in C; [|apply X]. rewrite (es_pts _ _ _ _ X) in C. apply span_nonempty in C. now apply C. }
  unfold ex_scan.
  assert (RE : exists e0, match x_start e with Some s0 => if (Fin q <? s0)%num then ex_reset e else e | None => e end = e0 /\ lx_inv s l e0 k /\
    x_ext e0 = x_ext e /\ (lfar l e q k -> lfar l e0 q k)).
  { eexists. split; [reflexivity|]. destruct (x_start e) as [st|] eqn:ST; auto. destruct (Fin q <? st)%num eqn:LT; auto.
    destruct (lx_start _ _ _ _ I) as [Ek|[K|K]]; [|congruence|].
    - subst k. destruct I as [L Cu _ (ls & p & [] & M) D Id]. split.
      + constructor; auto. exists ls, p. split; auto. constructor; auto.
      + split; auto. intros [F|(ls2 & po & z & [] & F)]; [now left|]. right. exists ls2, po, z. split; auto. constructor; auto.
    - exfalso. rewrite ST in K. destruct l as [|a l]; [discriminate|]. cbn [head_opt option_map] in K. injection K as ->.
      cbn [n_ltb XQ xq_ltb] in LT. qb_simpl.
      apply span_dom in C; [|apply X]. destruct C as (x & y & vx & vy & I1 & _ & L1 & _).
      rewrite (es_pts _ _ _ _ X) in I1. apply in_map_iff in I1. destruct I1 as (w & Ew & Iw). injection Ew as Ex _. rewrite <- Ex in L1.
      inversion SS; subst. rewrite Forall_forall in H2. destruct Iw as [->|Iw]; [qc_lra|]. specialize (H2 _ Iw). unfold slt in H2. qc_lra. }
  destruct RE as (e0 & -> & I0 & X0 & F0).
  destruct (lloop_ok s l q X NE fuel e0 k I0 ltac:(lia)) as (e' & k' & EL & I' & F & _ & ST). rewrite EL.
  exists e', k'. split; auto. split; auto. split; auto. intros FF. destruct (ST (F0 FF)) as [-> EX]. split; auto. congruence.
Qed.

Theorem lquery s l e k q fuel : ex_source s l -> lx_inv s l e k -> (length l < fuel)%nat ->
  exists e' k' v, ex_y fuel (p_crv s) own (Fin dev) (ref_fun R) e (Fin q) = (e', Ok v) /\ lx_inv s l e' k' /\
    (forall es p, extremas_of l es p -> value ILinear (map fop es) q v) /\ (lfar l e q k -> k' = k /\ x_ext e' = x_ext e).
Proof.
  intros X I Lf. pose proof (source_sorted m R s l X) as SS.
  unfold ex_y. cbn [c_dom p_crv]. destruct (i_contains (p_dom s) (Fin q)) eqn:C; cbn [negb].
  - destruct (lscan s l e k q fuel X I Lf C) as (e' & k' & EL & I' & F & ST). rewrite EL.
    destruct (lx_ext _ _ _ _ I') as (ls1 & p1 & Hh & M1).
    destruct (mode_ext l k' ls1 p1 SS (es_ref _ _ _ _ X) M1) as (es1 & RP & SE1 & _ & PRE).
    destruct (scanned_rep e' es1 ls1 q SE1 RP (hd_ext _ _ _ _ Hh) (hd_int _ _ _ _ Hh)) as (v & Ev & Vv). rewrite Ev.
    exists e', k', v. split; auto. split; auto. split; [|exact ST]. intros es p E. destruct (PRE es p E) as [[t Et] FULL].
    destruct F as [->|(ls2 & p2 & z & Hh2 & Z & LZ)].
    + rewrite FULL by lia. exact Vv.
    + assert (EQ : ls2 = ls1).
      { pose proof (hd_ext _ _ _ _ Hh) as A1. rewrite (hd_ext _ _ _ _ Hh2) in A1. clear -A1. revert ls1 A1. induction ls2 as [|a ls2 IH]; intros [|b ls1] A1; cbn in A1; try discriminate; auto.
        injection A1 as E1 E2 E3. f_equal; auto. destruct a, b; cbn in *; congruence. }
      subst ls2. rewrite (rep_last _ _ RP) in Z. rewrite Et. eapply value_prefix; eauto. rewrite <- Et. apply (extremas_sound dev R _ _ _ SS E).
  - destruct (ldom_ok s l e k I) as (e' & ED & I' & _ & _ & EX & _). rewrite ED, C. cbn [negb]. exists e', k, None. split; auto. split; auto. split; [|auto].
    intros es p E. destruct (extremas_sound dev R _ _ _ SS E) as (SE & IN & _).
    change (@None xq) with (@v_none xq (option xq) NumVal). apply val_outside.
    assert (CI : forall x, In x es -> i_contains (p_dom s) (Fin (fst x)) = true).
    { intros x Ix. destruct (IN x Ix) as [Jx _]. apply (source_dom m R s l _ X Jx). }
    destruct es as [|a es0]; [left; intros x []|]. set (es := a :: es0) in *. destruct (last_opt_some es) as [z Z]; [discriminate|].
    destruct (Qclt_le_dec q (fst a)) as [L1|L1].
    + left. intros x Ix. apply in_map_iff in Ix. destruct Ix as (y & <- & Iy). apply lt_x_fin. 
      apply (Qclt_le_trans _ (fst a)); auto. apply (first_min es); auto.
    + right. intros x Ix. apply in_map_iff in Ix. destruct Ix as (y & <- & Iy). apply lt_x_fin.
      destruct (Qclt_le_dec (fst z) q) as [L2|L2]; [apply (Qcle_lt_trans _ (fst z)); auto; apply (last_max es); auto|].
      exfalso. pose proof (CI a (or_introl eq_refl)) as C1. pose proof (CI z (last_opt_in _ _ Z)) as C2.
      pose proof (es_good _ _ _ _ X) as G. apply (span_dom s) in C1; auto. apply (span_dom s) in C2; auto.
      assert (i_contains (p_dom s) (Fin q) = true); [|congruence]. apply span_dom; auto.
      destruct C1 as (x1 & _ & v1 & _ & J1 & _ & K1 & _), C2 as (_ & x2 & _ & v2 & _ & J2 & _ & K2).
      exists x1, x2, v1, v2. repeat split; auto; qc_lra.
Qed.
End Ref.
End Life.
