(** append, replace and reset of Points: what they store, keep and notify. *)
From Coq Require Import List ZArith QArith Qcanon Bool Lia Lqa Sorting.Sorted Zify ZifyBool.
From Verif Require Import Base Num NumFacts Interval IntervalFacts Curve Points PointsSpec PointsIdx PointsQuery PointsDom PointsOps.
Import ListNotations.

Section Mut.
Context {V : Type} {W : Val xq V}.
Implicit Type l : list (xq * V).
Implicit Type s : pts xq V.

Lemma ascending_nil : ascending ([] : list (xq * V)).
Proof. split; constructor. Qed.
Lemma ascending_one (q : Qc) (v : V) : ascending [(Fin q, v)].
Proof. split; repeat constructor. simpl. now exists q. Qed.

(** ** append *)
Definition append1_domain s (x : xq) : ival xq :=
  match last_opt (p_pts s) with
  | Some z => mkI (fst z) x true false
  | None => i_closed x x
  end.

Lemma calm_nil_dom s : calm s -> p_pts s = [] -> p_dom s = i_empty.
Proof. intros C E. rewrite calm_dom, E by auto. reflexivity. Qed.

Theorem p_append_ok s q v s' evs : calm s -> p_append s (Fin q, v) = (s', evs, Ok tt) ->
  step_ok s (p_pts s ++ [(Fin q, v)]) (append1_domain s (Fin q)) s' evs /\
  points_equally_spaced (p_int s) (p_pts s) [(Fin q, v)] = Ok (p_eq s') /\
  (p_force s = true -> p_eq s' = true).
Proof.
  intros C E. unfold p_append in E. destruct (p_pts s) as [|p0 ps] eqn:Ep.
  - unfold p_append_list in E. rewrite Ep in E.
    apply p_set_ok in E; auto using ascending_one; [|discriminate].
    destruct E as [H1 [H2 H3]]. split; auto.
    unfold append1_domain. rewrite Ep. unfold set_domain in H1. cbn [head_opt last_opt fst] in H1.
    change (last_opt [(Fin q, v)]) with (Some (Fin q, v)) in H1. cbn [fst] in H1.
    rewrite calm_nil_dom in H1 by auto. rewrite union2_empty_l in H1; auto.
    + split; discriminate.
    + apply closed_nonempty. qc_lra.
  - rewrite <- Ep in *.
    destruct (p_append_list_cases s [(Fin q, v)] C) as [[a [z [_ [_ [_ K]]]]]|[A [b [Eb [_ [_ K]]]]]];
      auto using ascending_one; try congruence.
    destruct (p_force s && negb b) eqn:F.
    + destruct K as [? [K _]]. congruence.
    + destruct K as [s2 [K [K1 K2]]]. rewrite K in E. injection E as <- <-. rewrite K2.
      split; [|split; auto].
      * assert (X : append_domain s [(Fin q, v)] = append1_domain s (Fin q)).
        { unfold append_domain, append1_domain.
          destruct (last_opt_cons p0 ps) as [z Ez]. rewrite <- Ep in Ez. rewrite Ez. reflexivity. }
        rewrite X in *. exact K1.
      * intros Hf. rewrite Hf in F. now destruct b.
Qed.

(** Appending at or before the last point is refused and changes nothing. *)
Theorem p_append_refused s q v z : calm s -> last_opt (p_pts s) = Some z -> le_x (Fin q) (fst z) ->
  p_append s (Fin q, v) = (s, [], Err EExc).
Proof.
  intros C E L. unfold p_append, p_append_list. destruct (p_pts s) eqn:Ep; [discriminate|].
  rewrite E. cbn [head_opt last_opt fst]. unfold le_x in L. cbn [n_leb XQ]. now rewrite L.
Qed.

Lemma span_eq l x0 h i : ascending l -> (0 < h)%Qc ->
  (forall i p, nth_error l i = Some p -> fst p = Fin (x0 + QcofZ (Z.of_nat i) * h)%Qc) ->
  span_interval l = Ok i -> (2 <= length l)%nat -> i = Some (Fin h).
Proof.
  intros A Hh H S L. apply ascending_knots in A. destruct A as [qs K].
  rewrite (span_interval_knots _ _ K) in S. rewrite (knots_len _ _ K) in L.
  replace (length qs <? 2)%nat with false in S by (symmetry; apply Nat.ltb_ge; lia).
  injection S as <-. f_equal. f_equal.
  destruct (knots_nth _ _ 0 K) as [v0 E0]; [lia|]. destruct (knots_nth _ _ (length qs - 1) K) as [v1 E1]; [lia|].
  apply H in E0, E1. cbn [fst] in E0, E1. injection E0 as ->. injection E1 as ->.
  replace (Z.of_nat (length qs - 1)) with (Z.of_nat (length qs) - 1)%Z by lia.
  change (QcofZ (Z.of_nat 0)) with (QcofZ 0). rewrite QcofZ_0.
  assert (QcofZ (Z.of_nat (length qs) - 1) <> 0)%Qc.
  { rewrite <- QcofZ_0. rewrite QcofZ_eq. lia. }
  field. auto.
Qed.

Lemma equally_short l : ascending l -> (length l < 2)%nat -> equally_spaced l.
Proof.
  intros A L. destruct l as [|a [|b l]]; simpl in L; try lia.
  - exists 0%Qc, 1%Qc. split; [reflexivity|]. intros [|i] p; discriminate.
  - destruct (ascending_fin _ a A) as [q [v ->]]; [simpl; auto|].
    exists q, 1%Qc. split; [reflexivity|]. intros [|[|i]] p E; simpl in E; try discriminate. injection E as <-.
    cbn [fst]. f_equal. change (QcofZ (Z.of_nat 0)) with (QcofZ 0). rewrite QcofZ_0. ring.
Qed.

(** The check is exact when one point is appended to an equally spaced list. *)
Lemma pes_one l iv q v : ascending l -> equally_spaced l -> span_interval l = Ok iv -> ascending (l ++ [(Fin q, v)]) ->
  points_equally_spaced iv l [(Fin q, v)] = Ok true -> equally_spaced (l ++ [(Fin q, v)]).
Proof.
  intros A E S A2 P. destruct (Nat.le_gt_cases 2 (length l)) as [L|L].
  - destruct E as [x0 [h [Hh E]]]. pose proof (span_eq l x0 h iv A Hh E S L) as ->.
    exists x0, h. split; auto. intros i p Hi.
    destruct (Nat.lt_ge_cases i (length l)) as [Hl|Hl].
    + rewrite nth_error_app1 in Hi by auto. now apply E.
    + assert (i = length l). { pose proof (proj1 (nth_error_Some (l ++ [(Fin q,v)]) i)) as X. rewrite app_length in X. simpl in X. assert (i < length l + 1)%nat by (apply X; congruence). lia. }
      subst i. rewrite nth_error_app2, Nat.sub_diag in Hi by lia. simpl in Hi. injection Hi as <-. cbn [fst].
      unfold points_equally_spaced in P. cbn [length Nat.eqb orb] in P.
      replace (length l + 1 <? 2)%nat with false in P by (symmetry; apply Nat.ltb_ge; lia).
      replace (negb (length l =? 0)%nat) with true in P by (destruct (Nat.eqb_spec (length l) 0); auto; lia).
      destruct (last_opt l) as [z|] eqn:Ez; [|apply last_opt_none in Ez; subst; simpl in L; lia].
      rewrite (py_nth_m1 _ _ Ez) in P. cbn [rbind] in P.
      change (py_nth [(Fin q, v)] (-1)) with (Ok (Fin q, v)) in P. cbn [rbind fst] in P.
      rewrite last_opt_nth in Ez. apply E in Ez. rewrite Ez in P. injection P as P.
      cbn [n_eqb n_add n_mul n_ofZ XQ xq_eqb xq_add xq_mul] in P.
      apply Qceqb_true in P. rewrite P. f_equal.
      change (QcofZ (Z.of_nat 1)) with (QcofZ 1). rewrite QcofZ_1.
      replace (Z.of_nat (length l - 1)) with (Z.of_nat (length l) - 1)%Z by lia.
      rewrite QcofZ_sub, QcofZ_1. ring.
  - destruct l as [|a [|b l]]; simpl in L; try lia.
    + apply equally_short; auto.
    + destruct (ascending_fin _ a A) as [qa [va ->]]; [simpl; auto|].
      assert (L' : (qa < q)%Qc).
      { apply ascending_app_iff in A2. destruct A2 as [_ [_ A2]]. apply lt_x_fin.
        apply (A2 (Fin qa, va) (Fin q, v)); simpl; auto. }
      exists qa, (q - qa)%Qc. split; [qc_lra|].
      intros [|[|i]] p Hi; simpl in Hi; try discriminate.
      * injection Hi as <-. cbn [fst]. f_equal. change (QcofZ (Z.of_nat 0)) with (QcofZ 0). rewrite QcofZ_0. ring.
      * injection Hi as <-. cbn [fst]. f_equal. change (QcofZ (Z.of_nat 1)) with (QcofZ 1). rewrite QcofZ_1. ring.
      * destruct i; discriminate.
Qed.

(** With uniform=True, appending point by point keeps the curve consistent. *)
Theorem p_append_good s q v s' evs : good s -> p_force s = true -> p_append s (Fin q, v) = (s', evs, Ok tt) -> good s'.
Proof.
  intros G Hf E. apply good_calm in G. destruct G as [C T].
  destruct (p_append_ok s q v s' evs C E) as [K [P Q]]. apply good_calm. split; [apply K|].
  intros _. rewrite (so_pts _ _ _ _ _ K). rewrite (Q Hf) in P.
  pose proof (so_calm _ _ _ _ _ K) as C'. destruct C as [A [SI _]].
  eapply pes_one; eauto.
  - apply T. unfold p_uniform. now rewrite Hf.
  - rewrite <- (so_pts _ _ _ _ _ K). apply C'.
Qed.

(** The check accepts every equally spaced continuation. *)
Lemma pes_complete l m iv : l <> [] -> m <> [] -> ascending (l ++ m) -> equally_spaced (l ++ m) -> span_interval l = Ok iv ->
  points_equally_spaced iv l m = Ok true.
Proof.
  intros Hl Hm A E S. destruct E as [x0 [h [Hh E]]].
  pose proof (proj1 (ascending_app_iff l m) A) as [A1 [A2 _]].
  unfold points_equally_spaced.
  destruct (Nat.eqb_spec (length m) 0); [reflexivity|].
  destruct (Nat.ltb_spec (length l + length m) 2); [reflexivity|]. cbn [orb].
  assert (L0 : (0 < length l)%nat) by (destruct l; [congruence|simpl; lia]).
  replace (negb (length l =? 0)%nat) with true by (destruct (Nat.eqb_spec (length l) 0); auto; lia).
  destruct (last_opt l) as [z|] eqn:Ez; [|apply last_opt_none in Ez; congruence].
  destruct (last_opt m) as [y|] eqn:Ey; [|apply last_opt_none in Ey; congruence].
  rewrite (py_nth_m1 _ _ Ez), (py_nth_m1 _ _ Ey). cbn [rbind].
  assert (Xz : fst z = Fin (x0 + QcofZ (Z.of_nat (length l) - 1) * h)%Qc).
  { rewrite last_opt_nth in Ez. replace (Z.of_nat (length l) - 1)%Z with (Z.of_nat (length l - 1)) by lia.
    apply E. rewrite nth_error_app1 by lia. exact Ez. }
  assert (Xy : fst y = Fin (x0 + QcofZ (Z.of_nat (length l) + Z.of_nat (length m) - 1) * h)%Qc).
  { rewrite last_opt_nth in Ey.
    replace (Z.of_nat (length l) + Z.of_nat (length m) - 1)%Z with (Z.of_nat (length l + (length m - 1))) by lia.
    apply E. rewrite nth_error_app2 by lia. now replace (length l + (length m - 1) - length l)%nat with (length m - 1)%nat by lia. }
  assert (HI : (match iv with
         | Some h0 => Ok h0
         | None => if (length l =? 1)%nat then let! a := py_nth m 0 in Ok (fst a - fst z)%num
                   else let! a := py_nth m 1 in let! b := py_nth m 0 in Ok (fst a - fst b)%num end) = Ok (Fin h)).
  { destruct (Nat.le_gt_cases 2 (length l)) as [L|L].
    - rewrite (span_eq l x0 h iv A1 Hh); auto. intros i p H0. apply E. rewrite nth_error_app1; auto.
      apply nth_error_Some. congruence.
    - assert (iv = None). { destruct l as [|a [|b l]]; simpl in L; try lia; simpl in S; congruence. }
      subst iv. replace (length l =? 1)%nat with true by (symmetry; apply Nat.eqb_eq; lia).
      destruct m as [|b m]; [congruence|]. change (py_nth (b :: m) 0) with (Ok b). cbn [rbind].
      rewrite Xz. rewrite (E (length l) b) by (rewrite nth_error_app2, Nat.sub_diag by lia; reflexivity).
      cbn [n_sub XQ xq_sub]. f_equal. f_equal. rewrite QcofZ_sub, QcofZ_1. ring. }
  rewrite HI. cbn [rbind]. rewrite Xz, Xy.
  cbn [n_eqb n_add n_mul n_ofZ XQ xq_eqb xq_add xq_mul]. f_equal. apply Qceqb_true.
  rewrite !QcofZ_sub, QcofZ_add, QcofZ_1. ring.
Qed.

Theorem p_append_accepts s m : good s -> p_pts s <> [] -> ascending (p_pts s ++ m) -> equally_spaced (p_pts s ++ m) ->
  exists s' evs, p_append_list s m = (s', evs, Ok tt) /\ p_pts s' = p_pts s ++ m /\ good s'.
Proof.
  intros G Hp A E. apply good_calm in G. destruct G as [C T]. destruct m as [|b m].
  - exists s, []. rewrite app_nil_r. split; [|split; [reflexivity|now apply good_calm]].
    unfold p_append_list. destruct (p_pts s) eqn:X; [congruence|]. reflexivity.
  - assert (Hm : b :: m <> []) by congruence.
    pose proof (proj1 (ascending_app_iff _ _) A) as [A1 [A2 A3]].
    destruct (p_append_list_cases s (b :: m) C) as [[a [z [Ha [Ez [Lz _]]]]]|[_ [q [Eq [_ [_ K]]]]]]; auto; try congruence.
    + exfalso. pose proof (A3 z a (last_opt_in _ _ Ez) (head_opt_in _ _ Ha)) as L.
      destruct (ascending_fin _ a A2 (head_opt_in _ _ Ha)) as [qa [va ->]].
      destruct (ascending_fin _ z A1 (last_opt_in _ _ Ez)) as [qz [vz ->]].
      cbn [fst] in *. rewrite le_x_fin in Lz. rewrite lt_x_fin in L. qc_lra.
    + rewrite (pes_complete (p_pts s) (b :: m) (p_int s)) in Eq by (auto; try congruence; apply C).
      injection Eq as <-. rewrite andb_false_r in K. destruct K as [s' [K1 [K2 K3]]].
      eexists; eexists; split; [exact K1|]. split; [apply K2|]. apply good_calm. split; [apply K2|].
      intros _. rewrite (so_pts _ _ _ _ _ K2). exact E.
Qed.
End Mut.
