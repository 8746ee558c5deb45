(** Every successful operation of a Points source announces an interval before
    which its points are unchanged. *)
From Coq Require Import List ZArith QArith Qcanon Bool Sorting.Sorted Lia Arith.
From Verif Require Import Base Num NumFacts Interval IntervalFacts Curve BaseFacts.
From Verif Require Import Points PointsSpec PointsIdx PointsQuery PointsDom PointsOps PointsMut PointsReset PointsReplace PointsCover PointsHist.
From Verif Require Import Combine CombineFacts CombineTop Scan ScanFacts.
Import ListNotations.

Section Announce.
Context {V : Type} {WV : Val xq V}.
Implicit Types l : list (xq * V).
Implicit Types s : pts xq V.

Lemma le_x_refl x : notnan x -> le_x x x.
Proof. intros H. rewrite le_x_emb by auto. apply QArith_base.Qle_refl. Qed.
Lemma nn_point l p : ascending l -> In p l -> notnan (fst p).
Proof. intros A I. destruct (ascending_fin _ _ A I) as (q & v & ->). discriminate. Qed.

Lemma first_mem l p : ascending l -> head_opt l = Some p -> imem (pts_domain l) (fst p).
Proof.
  intros A H. destruct (last_opt l) as [z|] eqn:Z.
  2: { apply last_opt_none in Z. subst. discriminate. }
  rewrite (ends_ok _ _ _ A H Z). split; cbn.
  - apply le_x_refl. eapply nn_point; eauto using head_opt_in.
  - apply (ascending_head_le l p z A H). now apply last_opt_in.
Qed.

Definition fin_start (D : ival xq) : Prop := i_is_empty D = false -> exists q, i_start D = Fin q.
Lemma fin_start_union a b : fin_start a -> fin_start b -> fin_start (i_union2 a b).
Proof.
  unfold fin_start, i_union2. intros A B. destruct (i_is_empty a) eqn:EA, (i_is_empty b) eqn:EB; auto.
  - intros H. rewrite i_empty_is_empty in H. discriminate.
  - destruct A as [q A]; auto. destruct B as [r B]; auto. intros _.
    unfold earlier_start, later_end. rewrite A, B.
    destruct (n_ltb (Fin q) (Fin r)), (n_ltb (Fin r) (Fin q)), (n_ltb (i_end a) (i_end b)), (n_ltb (i_end b) (i_end a)); cbn; eauto.
Qed.
Lemma fin_start_dom l : ascending l -> fin_start (pts_domain l).
Proof.
  intros A E. destruct (head_opt l) as [a|] eqn:H.
  2: { destruct l; [|discriminate]. discriminate. }
  destruct (last_opt l) as [z|] eqn:Z.
  2: { apply last_opt_none in Z. subst. discriminate. }
  rewrite (ends_ok _ _ _ A H Z). destruct (ascending_fin _ a A (head_opt_in _ _ H)) as (q & v & ->). now exists q.
Qed.

Lemma announce_notify D l l' : iok D -> fin_start D -> (i_is_empty D = true -> l' = l) -> keeps D l l' ->
  announces (notify D) l l'.
Proof.
  intros K F E H. unfold notify. destruct (i_is_empty D) eqn:N; [left; auto|].
  destruct (F N) as [q Q]. right. exists D, q. auto.
Qed.

Lemma announce_dom l l' : ascending l -> (l = [] -> l' = []) -> announces (notify (pts_domain l)) l l'.
Proof.
  intros A E. apply announce_notify; auto using iok_pts_domain, fin_start_dom.
  - intros H. apply pts_domain_empty_iff in H; auto. rewrite H. now apply E.
  - apply keeps_first; auto using iok_pts_domain. intros p H. now apply first_mem.
Qed.

Lemma set_announces s l s' evs : calm s -> ascending l -> p_set s l None = (s', evs, Ok tt) ->
  announces evs (p_pts s) (p_pts s').
Proof.
  intros C A E. destruct (p_set_ok s l None s' evs C A ltac:(discriminate) E) as (S & _ & _).
  rewrite (so_pts _ _ _ _ _ S), (so_evs _ _ _ _ _ S).
  pose proof (proj1 C) as A0. unfold set_domain. rewrite calm_dom by auto.
  destruct (head_opt l) as [a|] eqn:HA.
  2: { destruct l; [|discriminate]. apply announce_dom; auto. }
  destruct (last_opt l) as [b|] eqn:HB.
  2: { apply last_opt_none in HB. subst. discriminate. }
  rewrite <- (ends_ok l a b A HA HB).
  pose proof (iok_pts_domain _ A0) as K0. pose proof (iok_pts_domain _ A) as K.
  apply announce_notify.
  - now apply iok_union2.
  - apply fin_start_union; now apply fin_start_dom.
  - rewrite union2_is_empty by auto. intros H. apply andb_prop in H. destruct H as [H1 H2].
    apply pts_domain_empty_iff in H1; auto. apply pts_domain_empty_iff in H2; auto. congruence.
  - apply keeps_first; auto using iok_union2. intros p H.
    assert (NN : notnan (fst p)) by (eapply nn_point; eauto using head_opt_in).
    apply imem_emem; auto using iok_union2. apply union2_cover; auto. left.
    apply imem_emem; auto. now apply first_mem.
Qed.

Lemma append_announces s l s' evs : calm s -> ascending l -> p_append_list s l = (s', evs, Ok tt) ->
  announces evs (p_pts s) (p_pts s').
Proof.
  intros C A E. destruct (p_pts s) as [|p0 ps] eqn:P.
  { unfold p_append_list in E. rewrite P in E. rewrite <- P. now apply set_announces with (l := l). }
  destruct l as [|b m].
  { unfold p_append_list in E. rewrite P in E. cbn in E. injection E as <- <-. left. auto. }
  destruct (p_append_list_cases s (b :: m) C) as [(a & z & _ & _ & _ & X)|(A' & q & _ & K & NE & X)]; auto; try congruence.
  destruct (p_force s && negb q); destruct X as (s2 & X & Y); [congruence|].
  rewrite X in E. injection E as <- <-. destruct Y as [Y _]. rewrite (so_pts _ _ _ _ _ Y), <- P.
  apply announce_notify; auto.
  - intros _. unfold append_domain. destruct (last_opt_cons p0 ps) as [z Z]. rewrite <- P in Z. rewrite Z.
    destruct (last_opt_cons b m) as [y Hy]. rewrite Hy. cbn.
    destruct (ascending_fin _ z (proj1 C) (last_opt_in _ _ Z)) as (r & v & ->). now exists r.
  - intros H. congruence.
  - rewrite <- (app_nil_r (p_pts s)) at 1. apply keeps_head; [rewrite app_nil_r; apply C|discriminate].
Qed.

Lemma not_before_start D x : notnan x -> le_x (i_start D) x -> i_so D = false -> ~ before D x.
Proof.
  intros N L O [B|[_ B]]; [|congruence]. destruct (i_start D) as [q| | |] eqn:S, x as [r| | |]; try discriminate; try congruence.
  apply le_x_fin in L. apply lt_x_fin in B. qc_lra.
Qed.

Lemma split_lt (l1 : list (xq * V)) p l2 r : ascending (l1 ++ p :: l2) -> In r l1 -> lt_x (fst r) (fst p).
Proof.
  intros A I. apply In_nth_error in I. destruct I as [i I].
  apply (asc_nth (l1 ++ p :: l2) i (length l1)); auto.
  - rewrite nth_error_app1; auto. apply nth_error_Some. congruence.
  - rewrite nth_error_app2, Nat.sub_diag by lia. reflexivity.
  - apply nth_error_Some. congruence.
Qed.

Lemma gap_announces (head mid tail : list (xq * V)) : ascending (head ++ mid ++ tail) -> mid <> [] -> head ++ tail <> [] ->
  announces (notify (gap_domain (head ++ mid ++ tail) head tail)) (head ++ mid ++ tail) (head ++ tail).
Proof.
  intros A Hm Hn. destruct (gap_ok head mid tail A Hm Hn) as [K NE].
  assert (NN : head ++ mid ++ tail <> []) by (destruct head; [destruct mid; [congruence|discriminate]|discriminate]).
  destruct (head_opt_some _ NN) as [a HA]. destruct (last_opt_some _ NN) as [z HZ].
  apply announce_notify; auto; [|congruence|].
  - intros _. unfold gap_domain. rewrite HA, HZ. cbn. destruct (last_opt head) as [h|] eqn:HH.
    + destruct (ascending_fin _ h A) as (q & v & ->); [apply in_or_app; left; now apply last_opt_in|]. now exists q.
    + destruct (ascending_fin _ a A (head_opt_in _ _ HA)) as (q & v & ->). now exists q.
  - apply keeps_head; auto. intros p Hp.
    assert (MP : head_opt mid = Some p) by (destruct mid; [congruence|exact Hp]).
    destruct mid as [|m mid]; [congruence|]. injection MP as ->.
    unfold gap_domain. rewrite HA, HZ. destruct (last_opt head) as [h|] eqn:HH.
    + intros B. pose proof (split_lt _ _ _ h A (last_opt_in _ _ HH)) as L.
      assert (Np : notnan (fst p)) by (eapply nn_point; [exact A|apply in_or_app; right; now left]).
      destruct B as [B|[B _]]; cbn in B.
      * assert (Nh : notnan (fst h)) by (eapply nn_point; [exact A|apply in_or_app; left; now apply last_opt_in]).
        rewrite lt_x_emb in L, B by auto. apply (QArith_base.Qlt_irrefl (emb (fst p))). eapply QArith_base.Qlt_trans; eauto.
      * rewrite B in L. rewrite lt_x_emb in L; [now apply (QArith_base.Qlt_irrefl _ L)|congruence|congruence].
    + apply last_opt_none in HH. subst head. cbn in HA. injection HA as ->.
      assert (Np : notnan (fst a)) by (eapply nn_point; [exact A|now left]).
      apply not_before_start; auto. cbn. now apply le_x_refl.
Qed.

Lemma point_announces (q : Qc) (l1 rest rest' : list (xq * V)) : ascending (l1 ++ rest) ->
  (forall p, head_opt rest = Some p -> le_x (Fin q) (fst p)) ->
  announces (notify (i_point (Fin q))) (l1 ++ rest) (l1 ++ rest').
Proof.
  intros A H. apply announce_notify.
  - split; discriminate.
  - intros _. now exists q.
  - rewrite point_nonempty. discriminate.
  - apply keeps_head; auto. intros p Hp. apply not_before_start; auto.
    eapply nn_point; [exact A|]. apply in_or_app. right. now apply head_opt_in.
Qed.

Theorem op_announces s o s' evs : good s -> op_ok o -> run_op s o = (s', evs, Ok tt) ->
  announces evs (p_pts s) (p_pts s').
Proof.
  intros G O E. pose proof (proj1 (proj1 (good_calm s) G)) as C.
  destruct o as [q v|l|q v oa|d|l]; cbn [run_op op_ok] in *.
  - apply append_announces with (l := [(Fin q, v)]); auto. apply ascending_one.
  - now apply append_announces with (l := l).
  - destruct (i_contains (p_dom s) (Fin q)) eqn:IC.
    + apply span_contains in IC; auto.
      destruct (p_replace_in _ _ _ _ _ _ _ G IC E) as [l1 v0 l2 Hp _ K _|l1 a b l2 Hp L1 L2 K].
      * rewrite (so_pts _ _ _ _ _ K), (so_evs _ _ _ _ _ K), Hp.
        pose proof (proj1 G) as A. rewrite Hp in A.
        apply point_announces; auto. intros p [= <-]. apply le_x_refl. discriminate.
      * destruct (p_force s); destruct K as [X K]; [discriminate|]. destruct K as [K _].
        rewrite (so_pts _ _ _ _ _ K), (so_evs _ _ _ _ _ K), Hp.
        pose proof (proj1 G) as A. rewrite Hp in A.
        apply point_announces; auto. intros p [= <-].
        destruct (fst b) as [r| | |] eqn:Eb; try discriminate; try reflexivity.
        apply lt_x_fin in L2. apply le_x_fin. qc_lra.
    + assert (NS : ~ span (p_pts s) q) by (rewrite <- span_contains by auto; congruence).
      rewrite (p_replace_out _ _ _ _ G NS) in E. destruct oa; [|discriminate].
      change (p_pts s) with (p_pts (p_touch s)). apply append_announces with (l := [(Fin q, v)]); auto using calm_touch. apply ascending_one.
  - destruct d as [d|].
    + destruct (p_reset_some _ _ _ _ _ G O E) as [[->| ->] -> _ _|_ _ K _|head mid tail b Hp Hm Hn _ _ K].
      * left. auto.
      * left. auto.
      * rewrite (so_pts _ _ _ _ _ K), (so_evs _ _ _ _ _ K). apply announce_dom; auto. apply G.
      * destruct (p_force s && negb b); destruct K as [X K]; [discriminate|]. destruct K as [K _].
        rewrite (so_pts _ _ _ _ _ K), (so_evs _ _ _ _ _ K), Hp.
        pose proof (proj1 G) as A. rewrite Hp in A. now apply gap_announces.
    + destruct (p_reset_none _ _ _ _ G E) as (_ & P & _ & _ & _ & ->). rewrite P.
      apply announce_dom; auto. apply G.
  - now apply set_announces with (l := l).
Qed.
End Announce.
