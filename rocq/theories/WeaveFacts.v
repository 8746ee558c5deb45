(** Every curve of a network shows its list of points, whatever was asked before. *)
From Coq Require Import List ZArith QArith Qcanon Bool Sorting.Sorted Lia Arith.
From Verif Require Import Base Num NumFacts Interval IntervalFacts Curve BaseFacts.
From Verif Require Import Points PointsSpec PointsIdx PointsQuery PointsDom PointsOps PointsMut PointsReset PointsReplace PointsCover PointsHist PointsTop PointsDec.
From Verif Require Import BaseTop Combine CombineFacts CombineTop CombineLine Scan ScanFacts ScanSource ScanInv ScanTf SmaFacts SmaInv ScanTop ScanView ScanSample ScanSampleFacts ScanSampleAcc Tower TowerFacts TowerTop TowerHist Weave WeaveList.
Import ListNotations.

(** ** States *)
Lemma put_len {T} {N : Num T} (g : gst T) j a : length (put g j a) = length g.
Proof. revert j. induction g as [|b g IH]; intros [|j]; cbn; auto. Qed.
Lemma put_at {T} {N : Num T} (g : gst T) j a : (j < length g)%nat -> acc_at (put g j a) j = a.
Proof. unfold acc_at. revert j. induction g as [|b g IH]; intros [|j] L; cbn in *; auto; try lia. apply IH. lia. Qed.
Lemma put_else {T} {N : Num T} (g : gst T) j a i : i <> j -> acc_at (put g j a) i = acc_at g i.
Proof. unfold acc_at. revert j i. induction g as [|b g IH]; intros [|j] [|i] NE; cbn; auto; try lia. Qed.
Lemma put_same {T} {N : Num T} (g : gst T) j : put g j (acc_at g j) = g.
Proof. unfold acc_at. revert j. induction g as [|b g IH]; intros [|j]; cbn; auto. now rewrite IH. Qed.

Lemma dom_xs (l l' : list (xq * num)) : map fst l = map fst l' -> pts_domain l = pts_domain l'.
Proof.
  intros X. unfold pts_domain.
  assert (H1 : option_map fst (head_opt l) = option_map fst (head_opt l')) by (destruct l, l'; cbn in *; congruence).
  assert (H2 : option_map fst (last_opt l) = option_map fst (last_opt l')) by now apply last_xs.
  destruct (head_opt l), (head_opt l'), (last_opt l), (last_opt l'); cbn in *; congruence.
Qed.
Lemma inter2_same (l : list (xq * num)) : ascending l -> i_inter2 (pts_domain l) (pts_domain l) = pts_domain l.
Proof.
  intros A. destruct l as [|p l]; [reflexivity|].
  assert (NE : i_is_empty (pts_domain (p :: l)) = false).
  { destruct (i_is_empty (pts_domain (p :: l))) eqn:X; auto. apply pts_domain_empty_iff in X; [discriminate|exact A]. }
  unfold i_inter2. rewrite NE. cbn [orb]. unfold later_start, earlier_end, n_gtb.
  assert (L : forall x : xq, n_ltb x x = false) by (intros [x| | |]; try reflexivity; apply Qcltb_false; apply Qcle_refl).
  rewrite !L. rewrite !orb_diag. destruct (pts_domain (p :: l)) as [a b so eo]. cbn [i_start i_end i_so i_eo] in *. now rewrite NE.
Qed.
Lemma inter_same (l : list (xq * num)) (ps : list nat) : ascending l -> ps <> [] -> i_inter (map (fun _ => pts_domain l) ps) = pts_domain l.
Proof.
  intros A NE. destruct ps as [|p ps]; [congruence|]. cbn [map i_inter]. clear NE. induction ps as [|p' ps IH]; [reflexivity|].
  cbn [map fold_left]. rewrite inter2_same by exact A. exact IH.
Qed.

Lemma union2_same (l : list (xq * num)) : ascending l -> i_union2 (pts_domain l) (pts_domain l) = pts_domain l.
Proof.
  intros A. destruct l as [|p l]; [reflexivity|].
  assert (NE : i_is_empty (pts_domain (p :: l)) = false).
  { destruct (i_is_empty (pts_domain (p :: l))) eqn:X; auto. apply pts_domain_empty_iff in X; [discriminate|exact A]. }
  unfold i_union2. rewrite NE. unfold earlier_start, later_end, n_gtb.
  assert (L : forall x : xq, n_ltb x x = false) by (intros [x| | |]; try reflexivity; apply Qcltb_false; apply Qcle_refl).
  rewrite !L. rewrite !andb_diag. now destruct (pts_domain (p :: l)) as [a b so eo].
Qed.
Lemma union_same (l : list (xq * num)) (ps : list nat) : ascending l -> ps <> [] -> i_union (map (fun _ => pts_domain l) ps) = pts_domain l.
Proof.
  intros A NE. destruct ps as [|p ps]; [congruence|]. unfold i_union. cbn [map fold_left]. clear NE.
  replace (i_union2 i_empty (pts_domain l)) with (pts_domain l).
  2: { destruct (i_is_empty (pts_domain l)) eqn:E; unfold i_union2; rewrite E; [|reflexivity].
       apply pts_domain_empty_iff in E; [now subst|exact A]. }
  induction ps as [|p' ps IH]; [reflexivity|]. cbn [map fold_left]. rewrite union2_same by exact A. exact IH.
Qed.

(** ** Sensible networks *)
Definition mx (a b : Qc) : Qc := if Qcltb a b then b else a.
Definition step_of (own : option xq) (a : Qc) : Qc := match own with Some (Fin m) => mx a m | _ => a end.
(** the least minimum step for which x_next is known to find the points *)
Definition node_floor (_ : nat) (pick : nat -> Qc) (n : wnode xq) : Qc :=
  match n with
  | WBase => 0%Qc
  | WMap _ own _ p => step_of own (pick p)
  | WAgg _ _ _ ps => fold_left (fun a p => mx a (pick p)) ps min_step
  | WScan _ own p => step_of own (pick p)
  end.
Definition w_floor (ns : list (wnode xq)) (j : nat) : Qc := wat 0%Qc node_floor ns j.
(** how many accumulating curves are over one another, at most, down from a curve *)
Definition node_deep (_ : nat) (pick : nat -> nat) (n : wnode xq) : nat :=
  match n with
  | WBase => 0%nat
  | WMap _ _ _ p => pick p
  | WAgg _ _ _ ps => list_max (map pick ps)
  | WScan _ _ p => S (pick p)
  end.
Definition w_deep (ns : list (wnode xq)) (j : nat) : nat := wat 0%nat node_deep ns j.

Definition step_ok (own : option xq) (d : list (Qc * Qc)) : Prop := exists m, own = Some (Fin m) /\ (0 < m)%Qc /\ coarse m (dots d).
Definition numbers (l : list (xq * num)) : Prop := forall a, In a l -> exists y, snd a = Some (Fin y).
(** over the points [d]: the minimum steps are at most the spacing; transforms
    do not raise, and give numbers at the points; and no point is at x = 0 if an
    accumulating curve asks for x_previous where two are below it *)
Definition node_ok (ns : list (wnode xq)) (d : list (Qc * Qc)) (j : nat) (n : wnode xq) : Prop :=
  match n with
  | WBase => True
  | WMap skip own tfm p => step_ok own d /\ (forall q v, exists w, map_val skip tfm (Fin q) v = Ok w) /\ numbers (w_list ns (dots d) j)
  | WAgg _ _ tfm ps => (forall q vs, length vs = length ps -> exists w, tfm (Fin q) vs = Ok w) /\ numbers (w_list ns (dots d) j)
  | WScan k own p => sound_layer k /\ step_ok own d /\ (looks_back k = true -> nonzero (dots d) \/ (w_deep ns p <= 1)%nat)
  end.
Definition woven (ns : list (wnode xq)) (d : list (Qc * Qc)) : Prop :=
  wf ns /\ forall j n, nth_error ns j = Some n -> node_ok ns d j n.
Definition w_out (ns : list (wnode xq)) (d : list (Qc * Qc)) (j : nat) : list (Qc * Qc) := map undot (w_list ns (dots d) j).

(** the values of the curves: the source's; the transforms of them; linear
    between the points of an accumulating curve *)
Inductive shows (ns : list (wnode xq)) (ip : interp) (d : list (Qc * Qc)) : nat -> Qc -> num -> Prop :=
| sh_base j q v : nth_error ns j = Some WBase -> value ip (dots d) q v -> shows ns ip d j q v
| sh_map j skip own tfm p q u v : nth_error ns j = Some (WMap skip own tfm p) -> shows ns ip d p q u ->
    map_val skip tfm (Fin q) u = Ok v -> shows ns ip d j q v
| sh_agg j un df tfm ps q us v : nth_error ns j = Some (WAgg un df tfm ps) -> i_contains (pts_domain (dots d)) (Fin q) = true ->
    Forall2 (fun p u => shows ns ip d p q u) ps us -> tfm (Fin q) us = Ok v -> shows ns ip d j q v
| sh_out j un df tfm ps q : nth_error ns j = Some (WAgg un df tfm ps) -> i_contains (pts_domain (dots d)) (Fin q) = false -> shows ns ip d j q df
| sh_scan j k own p q v : nth_error ns j = Some (WScan k own p) -> value ILinear (dots (w_out ns d j)) q v -> shows ns ip d j q v.

Section Net.
Context (ns : list (wnode xq)).

(** ** Lists of numbers *)
Lemma numbers_dots (l : list (xq * num)) d : map fst l = map fst (dots d) -> numbers l -> l = dots (map undot l).
Proof.
  revert d. induction l as [|[x v] l IH]; intros d E Nm; [reflexivity|]. destruct d as [|[q y] d]; [discriminate|].
  cbn in E. injection E as -> E. destruct (Nm _ (or_introl eq_refl)) as [w Ew]. cbn in Ew. subst v.
  assert (E' : l = dots (map undot l)) by (apply (IH d); auto; intros a I; apply Nm; now right).
  unfold dots in *. cbn [map]. unfold dot at 1, undot at 1 2. cbn [fst snd]. now rewrite <- E'.
Qed.
Lemma dots_numbers d : numbers (dots d).
Proof. intros a I. unfold dots in I. apply in_map_iff in I as ([x y] & <- & _). exists y. reflexivity. Qed.

Context (d : list (Qc * Qc)) (WV : woven ns d).
Notation l := (dots d).
Let W : wf ns := proj1 WV.
Notation lst := (w_list ns l).
Notation out := (w_out ns d).

Lemma list_dots j n : nth_error ns j = Some n -> lst j = dots (out j).
Proof.
  revert n. induction j as [j IH] using lt_wf_ind. intros n H.
  apply (numbers_dots _ d); [exact (list_xs ns W l j n H)|].
  pose proof (proj2 WV j n H) as K. destruct n as [|skip own tfm p|un df tfm ps|k own p]; cbn [node_ok] in K.
  - rewrite (wf_base ns j W H), (list_base ns W). apply dots_numbers.
  - apply K.
  - apply K.
  - destruct K as (SL & _ & _). assert (I : In p (wreads (WScan k own p))) by now left. destruct (wf_node ns j _ p W H I) as [m E].
    rewrite (list_scan ns W l j _ _ _ H), (IH p (wf_below ns j _ p W H I) m E), img_dots by exact SL. apply dots_numbers.
Qed.
Lemma out_xs j n : nth_error ns j = Some n -> map fst (dots (out j)) = map fst l.
Proof. intros H. rewrite <- (list_dots j n H). exact (list_xs ns W l j n H). Qed.

Context (A : ascending l) (ES : equally_spaced l) (CS : coarse min_step l).

Lemma asc_at j n : nth_error ns j = Some n -> ascending (lst j).
Proof. intros H. eapply ascending_xs; [symmetry; exact (list_xs ns W l j n H)|exact A]. Qed.
Lemma dom_at j n : nth_error ns j = Some n -> pts_domain (lst j) = pts_domain l.
Proof. intros H. apply dom_xs. exact (list_xs ns W l j n H). Qed.
Lemma nth_at j n k : nth_error ns j = Some n -> option_map fst (nth_error (lst j) k) = option_map fst (nth_error l k).
Proof. intros H. rewrite <- !nth_error_map. now rewrite (list_xs ns W l j n H). Qed.
Lemma nth_in j n k a : nth_error ns j = Some n -> nth_error (lst j) k = Some a -> exists v, nth_error l k = Some (fst a, v).
Proof.
  intros H E. pose proof (nth_at j n k H) as X. rewrite E in X. cbn in X. destruct (nth_error l k) as [[x v]|]; [|discriminate]. cbn in X. injection X as ->. eauto.
Qed.
Lemma nth_to i j n m k a : nth_error ns i = Some m -> nth_error ns j = Some n -> nth_error (lst i) k = Some a -> exists v, nth_error (lst j) k = Some (fst a, v).
Proof.
  intros Hi H E. pose proof (nth_at j n k H) as X. pose proof (nth_at i m k Hi) as Y. rewrite <- Y, E in X. cbn in X.
  destruct (nth_error (lst j) k) as [[x v]|]; [|discriminate]. cbn in X. injection X as ->. eauto.
Qed.
Lemma follow_at j n M q : nth_error ns j = Some n -> following (lst j) M (Fin q) = following l M (Fin q).
Proof. intros H. unfold following. now rewrite (list_xs ns W l j n H). Qed.

(** ** Values are unique *)
Lemma shows_unique ip j : forall q v w, shows ns ip d j q v -> shows ns ip d j q w -> v = w.
Proof.
  induction j as [j IH] using lt_wf_ind. intros q v w H1 H2.
  inversion H1 as [j1 q1 v1 N1 V1|j1 sk1 ow1 tf1 p1 q1 u1 v1 N1 S1 T1|j1 un1 df1 tf1 ps1 q1 us1 v1 N1 C1 F1 T1|j1 un1 df1 tf1 ps1 q1 N1 C1|j1 k1 ow1 p1 q1 v1 N1 V1]; subst;
  inversion H2 as [j2 q2 v2 N2 V2|j2 sk2 ow2 tf2 p2 q2 u2 v2 N2 S2 T2|j2 un2 df2 tf2 ps2 q2 us2 v2 N2 C2 F2 T2|j2 un2 df2 tf2 ps2 q2 N2 C2|j2 k2 ow2 p2 q2 v2 N2 V2]; subst;
  rewrite N1 in N2; try discriminate; try congruence.
  - eapply value_unique; eauto.
  - injection N2 as <- <- <- <-.
    assert (E : u1 = u2) by (apply (IH p1 (wf_below ns j _ p1 W N1 (or_introl eq_refl)) q); auto). congruence.
  - injection N2 as <- <- <- <-.
    assert (E : us1 = us2).
    { assert (B : forall p, In p ps1 -> (p < j)%nat) by (intros p I; exact (wf_below ns j _ p W N1 I)).
      clear -IH B F1 F2. revert us2 F2. induction F1 as [|p u ps us S F IHF]; intros us2 F2; inversion F2 as [|p' u' ps' us' S' F']; subst; auto.
      f_equal; [eapply IH; [apply B; now left| |]; eauto|]. apply IHF; auto. intros p' I. apply B. now right. }
    congruence.
  - eapply value_unique; [|exact V1|exact V2]. eapply ascending_xs; [symmetry; exact (out_xs j _ N1)|exact A].
Qed.
(** at the points they are those of the lists *)
Lemma shows_at ip j n : nth_error ns j = Some n -> forall q v w, shows ns ip d j q v -> In (Fin q, w) (lst j) -> v = w.
Proof.
  revert n. induction j as [j IH] using lt_wf_ind. intros n H q v w H1 J.
  assert (DOM : i_contains (pts_domain l) (Fin q) = true).
  { apply (in_map fst) in J. rewrite (list_xs ns W l j n H) in J. apply in_map_iff in J as (a & E & J). cbn [fst] in E. rewrite <- E. now apply dom_knot. }
  apply In_nth_error in J as [k Nk].
  inversion H1 as [j1 q1 v1 N1 V1|j1 sk1 ow1 tf1 p1 q1 u1 v1 N1 S1 T1|j1 un1 df1 tf1 ps1 q1 us1 v1 N1 C1 F1 T1|j1 un1 df1 tf1 ps1 q1 N1 C1|j1 k1 ow1 p1 q1 v1 N1 V1]; subst; try congruence.
  - rewrite (wf_base ns j W N1), (list_base ns W) in Nk. apply nth_error_In in Nk. eapply value_unique; [exact A|exact V1|now apply val_knot].
  - rewrite (list_map ns W l j _ _ _ _ N1), nth_error_map in Nk. destruct (nth_error (lst p1) k) as [[x u]|] eqn:Np; [|discriminate].
    cbn in Nk. injection Nk as -> <-. destruct (wf_node ns j _ p1 W N1 (or_introl eq_refl)) as [m E].
    rewrite <- (IH p1 (wf_below ns j _ p1 W N1 (or_introl eq_refl)) m E q u1 u S1 (nth_error_In _ _ Np)). rewrite T1. reflexivity.
  - destruct (nth_in j n k _ H Nk) as (y & Nl). cbn [fst] in Nl.
    assert (Lk : (k < length l)%nat) by (apply nth_error_Some; congruence).
    rewrite (list_agg ns W l j _ _ _ _ N1), nth_error_map in Nk.
    assert (Nsq : nth_error (seq 0 (length l)) k = Some k) by (rewrite (nth_error_nth' _ 0%nat) by (rewrite seq_length; lia); rewrite seq_nth by lia; reflexivity).
    rewrite Nsq in Nk. cbn [option_map] in Nk. rewrite (nth_error_nth l k no_pt Nl) in Nk. cbn [fst] in Nk. injection Nk as <-.
    assert (E : us1 = map (fun p => snd (nth k (lst p) no_pt)) ps1).
    { assert (B : forall p, In p ps1 -> (p < j)%nat /\ exists m, nth_error ns p = Some m) by (intros p I; split; [exact (wf_below ns j _ p W N1 I)|exact (wf_node ns j _ p W N1 I)]).
      assert (NK : forall p m, nth_error ns p = Some m -> exists u, nth_error (lst p) k = Some (Fin q, u)).
      { intros p m E. pose proof (nth_at p m k E) as X. rewrite Nl in X. cbn in X. destruct (nth_error (lst p) k) as [[x u]|]; [|discriminate]. cbn in X. injection X as ->. eauto. }
      clear -IH B F1 NK. induction F1 as [|p u ps us S F IHF]; [reflexivity|]. cbn [map]. f_equal.
      - destruct (B p (or_introl eq_refl)) as [Lp [m E]]. destruct (NK p m E) as [u' Nu]. rewrite (nth_error_nth _ _ no_pt Nu). cbn [snd].
        exact (IH p Lp m E q u u' S (nth_error_In _ _ Nu)).
      - apply IHF. intros p' I. apply B. now right. }
    rewrite <- E, T1. reflexivity.
  - rewrite <- (list_dots j _ N1) in V1. apply nth_error_In in Nk. eapply value_unique; [exact (asc_at j _ N1)|exact V1|now apply val_knot].
Qed.
End Net.
