(** Accumulating curves over an equally spaced Points source: the accumulated
    points are always a prefix of the specified list. *)
From Coq Require Import List ZArith QArith Qcanon Bool Sorting.Sorted Lia Arith.
From Verif Require Import Base Num NumFacts Interval IntervalFacts Curve BaseFacts.
From Verif Require Import Points PointsSpec PointsIdx PointsQuery PointsDom PointsOps PointsMut PointsReset PointsReplace PointsCover PointsHist.
From Verif Require Import Combine CombineFacts CombineTop Scan.
Import ListNotations.

Section Source.
Context {V : Type} {WV : Val xq V}.
Implicit Types l : list (xq * V).

(** neighbouring points are at least [m] apart *)
Definition coarse (m : Qc) l : Prop := forall i a b va vb,
  nth_error l i = Some (Fin a, va) -> nth_error l (S i) = Some (Fin b, vb) -> (m <= b - a)%Qc.

Lemma asc_nth l i j p q : ascending l -> nth_error l i = Some p -> nth_error l j = Some q -> (i < j)%nat -> lt_x (fst p) (fst q).
Proof.
  intros A I J L. apply ascending_knots in A. destruct A as [qs K].
  destruct p as [x v], q as [y w].
  destruct (knots_nth_inv _ _ _ _ _ K I) as [Li ->]. destruct (knots_nth_inv _ _ _ _ _ K J) as [Lj ->].
  cbn [fst]. apply lt_x_fin. apply K. lia.
Qed.
Lemma asc_fin l i p : ascending l -> nth_error l i = Some p -> exists q, p = (Fin q, snd p).
Proof. intros A I. apply nth_error_In in I. destruct (ascending_fin _ _ A I) as (q & v & ->). now exists q. Qed.

Lemma least_unique l b y y' : ascending l -> notnan b -> least_from l b y -> least_from l b y' -> y = y'.
Proof.
  intros A N. destruct y as [y|], y' as [y'|]; cbn.
  - intros ((v & I) & L & M) ((v' & I') & L' & M').
    destruct (ascending_fin _ _ A I) as (q & w & E). injection E as -> ->.
    destruct (ascending_fin _ _ A I') as (q' & w' & E). injection E as -> ->.
    specialize (M _ _ I' L'). specialize (M' _ _ I L). apply le_x_fin in M, M'. do 2 f_equal.
    now apply Qcle_antisym.
  - intros ((v & I) & L & M) H. destruct (H _ _ I L).
  - intros H ((v & I) & L & M). destruct (H _ _ I L).
  - reflexivity.
Qed.
Lemma greatest_unique l b y y' : ascending l -> notnan b -> greatest_upto l b y -> greatest_upto l b y' -> y = y'.
Proof.
  intros A N. destruct y as [y|], y' as [y'|]; cbn.
  - intros ((v & I) & L & M) ((v' & I') & L' & M').
    destruct (ascending_fin _ _ A I) as (q & w & E). injection E as -> ->.
    destruct (ascending_fin _ _ A I') as (q' & w' & E). injection E as -> ->.
    specialize (M _ _ I' L'). specialize (M' _ _ I L). apply le_x_fin in M, M'. do 2 f_equal.
    now apply Qcle_antisym.
  - intros ((v & I) & L & M) H. destruct (H _ _ I L).
  - intros H ((v & I) & L & M). destruct (H _ _ I L).
  - reflexivity.
Qed.

(** the next point of a stored point *)
Lemma next_least l m i a v : ascending l -> coarse m l -> (0 < m)%Qc -> nth_error l i = Some (Fin a, v) ->
  least_from l (Fin (a + m)%Qc) (option_map fst (nth_error l (S i))).
Proof.
  intros A C M I. destruct (nth_error l (S i)) as [[x w]|] eqn:J; cbn.
  - destruct (asc_fin _ _ _ A J) as [b E]. cbn in E. injection E as ->.
    split; [exists w; eapply nth_error_In; eauto|]. split.
    + apply le_x_fin. specialize (C _ _ _ _ _ I J). qc_lra.
    + intros x u H L. apply In_nth_error in H. destruct H as [j H].
      destruct (asc_fin _ _ _ A H) as [c E]. cbn in E. injection E as ->.
      apply le_x_fin in L. apply le_x_fin.
      destruct (Nat.lt_trichotomy j (S i)) as [Lj|[->|Lj]].
      * destruct (Nat.eq_dec j i) as [->|Nj].
        { rewrite I in H. injection H as -> ->. exfalso. qc_lra. }
        pose proof (asc_nth _ _ _ _ _ A H I ltac:(lia)) as Q. cbn in Q. apply lt_x_fin in Q. exfalso. qc_lra.
      * rewrite J in H. injection H as -> ->. apply Qcle_refl.
      * pose proof (asc_nth _ _ _ _ _ A J H ltac:(lia)) as Q. cbn in Q. apply lt_x_fin in Q. qc_lra.
  - intros x u H L. apply In_nth_error in H. destruct H as [j H].
    destruct (asc_fin _ _ _ A H) as [c E]. cbn in E. injection E as ->.
    apply nth_error_None in J. assert (Lj : (j < length l)%nat) by (apply nth_error_Some; congruence).
    apply le_x_fin in L. destruct (Nat.eq_dec j i) as [->|Nj].
    { rewrite I in H. injection H as -> ->. qc_lra. }
    assert (Li : (i < length l)%nat) by (apply nth_error_Some; congruence).
    pose proof (asc_nth _ _ _ _ _ A H I ltac:(lia)) as Q. cbn in Q. apply lt_x_fin in Q. qc_lra.
Qed.

Lemma knot_next (s : pts xq V) m i a v lim : good s -> coarse m (p_pts s) -> (0 < m)%Qc -> nth_error (p_pts s) i = Some (Fin a, v) ->
  p_x_next s (Fin a) (Some (Fin m)) lim = Ok (option_map fst (nth_error (p_pts s) (S i))).
Proof.
  intros G C M I. destruct (p_x_next_spec s (Fin a) m lim G ltac:(discriminate)) as (y & E & L).
  rewrite E. f_equal. eapply least_unique; [apply G| |exact L|].
  - discriminate.
  - cbn [xq_add]. now apply next_least with (v := v) (1 := proj1 G).
Qed.

(** the point before a place just after the list *)
Lemma last_previous (s : pts xq V) m z w b lim : good s -> last_opt (p_pts s) = Some (Fin z, w) -> (z <= b - m)%Qc ->
  p_x_previous s (Fin b) (Some (Fin m)) lim = Ok (Some (Fin z)).
Proof.
  intros G Z L. destruct (p_x_previous_spec s (Fin b) m lim G ltac:(discriminate)) as (y & E & Q).
  rewrite E. f_equal. eapply greatest_unique; [apply G| |exact Q|].
  - discriminate.
  - cbn. split; [exists w; now apply last_opt_in|]. split; [now apply le_x_fin|].
    intros x v I _. exact (ascending_last_ge _ _ _ (proj1 G) Z I).
Qed.
Lemma knot_previous (s : pts xq V) m i a v lim : good s -> coarse m (p_pts s) -> (0 < m)%Qc -> nth_error (p_pts s) (S i) = Some (Fin a, v) ->
  p_x_previous s (Fin a) (Some (Fin m)) lim = Ok (option_map fst (nth_error (p_pts s) i)).
Proof.
  intros G C M I. pose proof (proj1 G) as A.
  destruct (p_x_previous_spec s (Fin a) m lim G ltac:(discriminate)) as (y & E & L).
  rewrite E. f_equal. eapply greatest_unique; [exact A| |exact L|].
  - discriminate.
  - assert (Li : (S i < length (p_pts s))%nat) by (apply nth_error_Some; congruence).
    destruct (nth_error (p_pts s) i) as [[x w]|] eqn:J.
    2: { apply nth_error_None in J. lia. }
    destruct (asc_fin _ _ _ A J) as [b E']. cbn in E'. injection E' as ->. cbn.
    split; [exists w; eapply nth_error_In; eauto|]. split.
    + apply le_x_fin. specialize (C _ _ _ _ _ J I). qc_lra.
    + intros x u H Lx. apply In_nth_error in H. destruct H as [j H].
      destruct (asc_fin _ _ _ A H) as [c E']. cbn in E'. injection E' as ->.
      apply le_x_fin in Lx. apply le_x_fin.
      destruct (Nat.lt_trichotomy j i) as [Lj|[->|Lj]].
      * pose proof (asc_nth _ _ _ _ _ A H J Lj) as Q. cbn in Q. apply lt_x_fin in Q. qc_lra.
      * rewrite J in H. injection H as -> ->. apply Qcle_refl.
      * destruct (Nat.eq_dec j (S i)) as [->|Nj].
        { rewrite I in H. injection H as -> ->. exfalso. qc_lra. }
        pose proof (asc_nth _ _ _ _ _ A I H ltac:(lia)) as Q. cbn in Q. apply lt_x_fin in Q. exfalso. qc_lra.
Qed.

(** ** What an update leaves untouched *)
Definition before (D : ival xq) (x : xq) : Prop := lt_x x (i_start D) \/ (x = i_start D /\ i_so D = true).
Definition keeps (D : ival xq) l l' : Prop := forall k, (k <= length l)%nat ->
  (forall p, In p (firstn k l) -> before D (fst p)) -> firstn k l' = firstn k l.
Definition announces (evs : list (ev xq)) l l' : Prop :=
  (evs = [] /\ l' = l) \/
  exists D q, evs = [EvBegin D; EvEnd D] /\ iok D /\ i_is_empty D = false /\ i_start D = Fin q /\ keeps D l l'.

Lemma before_not_mem D x : notnan x -> iok D -> before D x -> ~ imem D x.
Proof.
  intros N K B [S _]. assert (NS : notnan (i_start D)) by apply K. destruct B as [B|[E O]].
  - destruct (i_so D).
    + rewrite lt_x_emb in * by auto. apply (QArith_base.Qlt_irrefl (emb x)). eapply QArith_base.Qlt_trans; eauto.
    + rewrite lt_x_emb in B by auto. rewrite le_x_emb in S by auto. apply (QArith_base.Qlt_not_le _ _ B S).
  - rewrite O in S. subst x. rewrite lt_x_emb in S by auto. now apply (QArith_base.Qlt_irrefl _ S).
Qed.

(** if the first point belongs to the announced interval, nothing is kept *)
Lemma keeps_first D l l' : ascending l -> iok D -> (forall p, head_opt l = Some p -> imem D (fst p)) -> keeps D l l'.
Proof.
  intros A K H k L B. destruct k; [reflexivity|]. destruct l as [|p l]; [cbn in L; lia|].
  exfalso. apply (before_not_mem D (fst p)); auto.
  - destruct (ascending_fin (p :: l) p A (or_introl eq_refl)) as (q & v & ->). discriminate.
  - apply B. now left.
Qed.

(** a common head, followed by points that are not before the interval *)
Lemma keeps_head D head rest rest' : ascending (head ++ rest) ->
  (forall p, head_opt rest = Some p -> ~ before D (fst p)) -> keeps D (head ++ rest) (head ++ rest').
Proof.
  intros A H k L B. destruct (le_lt_dec k (length head)) as [Lk|Lk].
  - now rewrite !firstn_app, (proj2 (Nat.sub_0_le _ _) Lk), !firstn_O.
  - exfalso. destruct rest as [|p rest]; [rewrite app_nil_r in L; lia|].
    apply (H p eq_refl). apply B. rewrite firstn_app. apply in_or_app. right.
    destruct (k - length head)%nat eqn:E; [lia|]. now left.
Qed.
End Source.
