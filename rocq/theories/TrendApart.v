(** The minimal distance of set_trend_with_boundary_points (trend.py:419-423):
    the chosen line is at least that long unless no inner point is left. *)
From Coq Require Import List ZArith QArith Qcanon Bool Lia Sorting.Sorted.
From Verif Require Import Base Num NumFacts Interval Points Trend TrendGeo TrendPred TrendLineInv TrendCol TrendSet TrendHullSet.
Import ListNotations.
Open Scope Qc_scope.

Lemma fp_inj (l m : list qpt) : map fp l = map fp m -> l = m.
Proof.
  revert m. induction l as [|[p q] l IH]; intros [|[u v] m] H; try discriminate H; [reflexivity|]. cbn [map] in H. injection H as A B H. rewrite (IH _ H), A, B. reflexivity.
Qed.

Section Apart.
Variables (eps d : Qc) (wd ln : xq) (up : bool) (mp : Z) (r a : option Qc).
Let g : cfg xq := mkG wd up mp (Fin d) ln (fo r) (fo a).
Hypothesis (Heps : 0 <= eps).

Definition gaps (l : list qpt) : Prop := Forall (fun s => d <= fst (snd s) - fst (fst s)) (combine l (List.tl l)).
Lemma gaps_cons p q l : gaps (p :: q :: l) <-> d <= fst q - fst p /\ gaps (q :: l).
Proof. unfold gaps. cbn [List.tl combine]. rewrite Forall_cons_iff. reflexivity. Qed.
Lemma gaps_one p : gaps [p]. Proof. constructor. Qed.
Lemma skipn_next {A} i (l : list A) p t : skipn i l = p :: t -> skipn (S i) l = t.
Proof. revert l. induction i as [|i IH]; intros [|x l] E; try discriminate E; [cbn in E; now injection E|]. exact (IH l E). Qed.
Lemma skipn_del {A} i (l : list A) p q t : skipn i l = p :: q :: t -> skipn i (del l (S i)) = p :: t.
Proof.
  revert l. induction i as [|i IH]; intros [|x l] E; try discriminate E; [destruct l as [|y l]; [discriminate E|]; cbn in E; injection E as -> _ ->; reflexivity|]. exact (IH l E).
Qed.
Lemma near_apart i : forall l, StronglySorted by_xs l -> (S (S i) <= length l)%nat -> (length (skipn i l) = 2%nat \/ gaps (skipn i l)) ->
  exists l', prune_near g i (map fp l) = map fp l' /\ (length l' = 2%nat \/ gaps l').
Proof.
  induction i as [|i IH]; intros l So Le I; [exists l; split; [reflexivity|exact I]|]. cbn [prune_near]. rewrite skipn_map.
  destruct (skipn i l) as [|q0 [|q1 [|q2 t]]] eqn:E; try (pose proof (f_equal (@length _) E) as L; rewrite skipn_length in L; cbn in L; lia). cbn [map].
  destruct (three_asc _ _ _ _ _ _ So E) as [ L1 L2 ]. rewrite (skipn_next _ _ _ _ E) in I.
  change (n_ltb (n_sub (fst (fp q1)) (fst (fp q0))) (g_dist g)) with (Qcltb (fst q1 - fst q0) d). change (n_ltb (n_sub (fst (fp q2)) (fst (fp q1))) (g_dist g)) with (Qcltb (fst q2 - fst q1) d).
  destruct (Qcltb (fst q1 - fst q0) d || Qcltb (fst q2 - fst q1) d) eqn:C.
  - rewrite del_map. apply IH.
    + eapply sub_sorted; [apply del_sub|exact So].
    + pose proof (del_len l (S i) ltac:(lia)). lia.
    + rewrite (skipn_del _ _ _ _ _ E). destruct I as [I|I]; [left; cbn in I |- *; lia|]. destruct t as [|q3 t]; [left; reflexivity|right].
      apply gaps_cons in I. destruct I as [I1 I2]. apply gaps_cons. split; [qc_lra|exact I2].
  - apply orb_false_iff in C. destruct C as [C1 C2]. apply Qcltb_false in C1. apply Qcltb_false in C2. apply IH; [exact So|lia|]. rewrite E. right.
    apply gaps_cons. split; [exact C1|]. destruct I as [I|I]; [|exact I]. destruct t; [|discriminate I]. apply gaps_cons. split; [exact C2|apply gaps_one].
Qed.

Lemma set_trend_apart p0 mid z : StronglySorted by_xs (p0 :: mid ++ [z]) ->
  exists u v w bm, set_trend (Fin eps) g (map fp (p0 :: mid ++ [z])) = Ok (fp u :: w ++ [fp v], fp p0 :: bm ++ [fp z])
    /\ ((u, v) = (p0, z) \/ d <= fst v - fst u).
Proof.
  intro So. unfold set_trend.
  set (B := map fp (p0 :: mid ++ [z])).
  assert (EB : B = fp p0 :: map fp mid ++ [fp z]) by (unfold B; cbn [map]; now rewrite map_app).
  assert (LB : length B = S (S (length mid))) by (unfold B; rewrite map_length; cbn [length]; rewrite app_length; cbn; lia).
  destruct (prune_while_total eps wd (Fin d) ln up mp r a Heps p0 z (fp p0) (fp z) (S (length B)) mid (map fp mid) [] So ltac:(lia)) as (mid1 & bm & co & R & S1 & S2);
    [ now rewrite map_length | ].
  fold B in R. rewrite <- EB in R.
  match goal with |- context [ rbind ?X _ ] => replace X with (Ok (map fp (p0 :: mid1 ++ [z]), fp p0 :: bm ++ [fp z], co) : res (list (pt xq) * list (pt xq) * list (pt xq))) by (symmetry; exact R) end.
  cbn [rbind].
  assert (Dr : Forall (fun p => In p B) co /\ Forall (fun p => In p B) (fp p0 :: bm ++ [fp z])).
  { assert (FB : Forall (fun p => In p B) B) by (apply Forall_forall; auto).
    destruct (prune_while_draws (Fin eps) g (fun p => In p B) _ _ _ _ _ _ _ FB FB (Forall_nil _) R) as (_ & Q1 & Q2). split; assumption. }
  destruct Dr as [ Dc Db ].
  assert (Fi : forall l : list (xq * xq), Forall (fun p => In p B) l -> Forall finp l).
  { intros l F. rewrite Forall_forall in F |- *. intros p K. specialize (F p K). unfold B in F. apply in_map_iff in F. destruct F as (q & <- & _). now exists q. }
  rewrite map_length, ends_len.
  destruct (prune_near_total wd (Fin d) ln up mp r a p0 z (length mid1) mid1 ltac:(lia)) as (mid2 & E2 & S3).
  assert (Gaps : mid2 = [] \/ gaps (p0 :: mid2 ++ [z])).
  { destruct (near_apart (length mid1) (p0 :: mid1 ++ [z])) as (L' & E3 & H3).
    - eapply sub_sorted; [ apply sub_ends, S1 | exact So ].
    - cbn [length]. rewrite app_length. cbn. lia.
    - left. rewrite skipn_length. cbn [length]. rewrite app_length. cbn [length]. lia.
    - assert (Q : L' = p0 :: mid2 ++ [z]) by (apply fp_inj; rewrite <- E3; exact E2). subst L'. destruct H3 as [H3|H3]; [left|right; exact H3].
      destruct mid2; [reflexivity|]. cbn [app length] in H3. rewrite app_length in H3. cbn [length] in H3. lia. }
  fold g in E2. rewrite E2. clear E2.
  assert (So2 : StronglySorted by_xs (p0 :: mid2 ++ [z])).
  { eapply sub_sorted; [ apply sub_ends | exact So ]. eapply sub_trans; eauto. }
  assert (Sub2 : sub (p0 :: mid2 ++ [z]) (p0 :: mid ++ [z])) by (apply sub_ends; eapply sub_trans; eauto).
  assert (Fin : exists u v, match map fp (p0 :: mid2 ++ [z]) with
      | [] | [_] => Ok None | [a; b] => Ok (Some (a, b)) | a :: _ :: _ => best_line (fp p0 :: bm ++ [fp z]) None (pairs (map fp (p0 :: mid2 ++ [z]))) end
      = Ok (Some (fs (u, v))) /\ fst u < fst v /\ ((u, v) = (p0, z) \/ d <= fst v - fst u)).
  { assert (G : forall s, In s (combine (p0 :: mid2 ++ [z]) (List.tl (p0 :: mid2 ++ [z]))) ->
       fst (fst s) < fst (snd s)).
    { intros s K. pose proof (pairs_asc _ So2) as Pa. rewrite Forall_forall in Pa. exact (Pa _ K). }
    destruct mid2 as [|m1 mid2].
    - exists p0, z. cbn [app map]. split; [ reflexivity | ]. split; [apply (G (p0, z)); now left|left; reflexivity].
    - destruct (best_line_total (fp p0 :: bm ++ [fp z]) (Fi _ Db) (combine (p0 :: (m1 :: mid2) ++ [z]) (List.tl (p0 :: (m1 :: mid2) ++ [z]))) None) as (s & Es).
      + eapply Forall_impl; [ | exact (pairs_asc _ So2) ]. intros s K. exact (Qclt_ne _ _ K).
      + left. discriminate.
      + rewrite <- pairs_fp in Es. pose proof (best_line_in _ _ _ _ Es) as [ K | (f & ?) ]; [ | discriminate ].
        rewrite pairs_fp in K. apply in_map_iff in K. destruct K as ([u v] & <- & K). exists u, v.
        split; [ | split; [exact (G _ K)|right; destruct Gaps as [Gaps|Gaps]; [discriminate Gaps|]; unfold gaps in Gaps; rewrite Forall_forall in Gaps; exact (Gaps _ K)] ].
        cbn [app map] in Es |- *. destruct (map fp (mid2 ++ [z])) eqn:Q; [ destruct mid2; discriminate | ]. exact Es. }
  destruct Fin as (u & v & E & Lt & Ap).
  match goal with |- context [ rbind ?X _ ] => replace X with (Ok (Some (fs (u, v)))) end.
  cbn [rbind]. destruct (keep_total eps wd (Fin d) ln up mp r a Heps (u, v) (Qclt_ne _ _ Lt) co (Fi _ Dc)) as (w & Ew).
  fold g in Ew. rewrite Ew. cbn [rbind fs fst snd]. exists u, v, w, bm. split; [reflexivity|exact Ap].
Qed.
End Apart.
