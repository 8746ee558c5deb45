(** The pruning of the boundary (trend.py:403-417) when no point is coincident. *)
From Coq Require Import List ZArith Bool Lia.
From Verif Require Import Base Num Interval Points Trend.
Import ListNotations.

Section Prune.
Context {T : Type} {N : Num T}.
Variables (eps : T) (g : cfg T).
Notation pt := (pt T).

(** Collecting coincident points never empties the list of them. *)
Lemma prune_for_co i : forall ex bnd co rem ex' bnd' co' rem', prune_for eps g i (ex, bnd, co, rem) = Ok (ex', bnd', co', rem') ->
  exists c, co' = co ++ c.
Proof.
  induction i as [|i IH]; intros ex bnd co rem ex' bnd' co' rem' H.
  - injection H as <- <- <- <-. exists []. now rewrite app_nil_r.
  - cbn [prune_for] in H. destruct (skipn i ex) as [|p0 [|p1 [|p2 l]]]; try discriminate.
    destruct (coincident eps _ _ p0 p1 p2) as [ c | ]; [ | discriminate ]. cbn [rbind] in H.
    destruct (strictly_convex eps _ _ p0 p1 p2) as [ v | ]; [ | discriminate ]. cbn [rbind] in H.
    destruct (c || eqb v (g_upper g)); [ | now apply IH in H ].
    apply IH in H. destruct H as (r & ->). match goal with |- context [ if ?b then co ++ [p1] else co ] => destruct b end.
    + exists (p1 :: r). now rewrite <- app_assoc.
    + now exists r.
Qed.
Lemma prune_for_aligned i : forall ex bnd rem ex' bnd' rem', prune_for eps g i (ex, bnd, [], rem) = Ok (ex', bnd', [], rem') ->
  ex = bnd -> ex' = bnd'.
Proof.
  induction i as [|i IH]; intros ex bnd rem ex' bnd' rem' H E.
  - now injection H as <- <- <-.
  - cbn [prune_for] in H. destruct (skipn i ex) as [|p0 [|p1 [|p2 l]]]; try discriminate.
    destruct (coincident eps _ _ p0 p1 p2) as [ c | ]; [ | discriminate ]. cbn [rbind] in H.
    destruct (strictly_convex eps _ _ p0 p1 p2) as [ v | ]; [ | discriminate ]. cbn [rbind] in H.
    destruct (c || eqb v (g_upper g)); [ | exact (IH _ _ _ _ _ _ H E) ].
    destruct c; cbn [last_opt andb] in H.
    + cbn in H. apply prune_for_co in H. destruct H as (r & H). discriminate.
    + apply IH in H; [ exact H | now rewrite E ].
Qed.
Lemma prune_while_co f : forall ex bnd co ex' bnd' co', prune_while eps g f ex bnd co = Ok (ex', bnd', co') -> exists c, co' = co ++ c.
Proof.
  induction f as [|f IH]; intros ex bnd co ex' bnd' co' H; [ discriminate | ]. cbn [prune_while] in H.
  destruct (prune_for eps g _ _) as [ [[[ex1 bnd1] co1] rm] | ] eqn:Q; [ | discriminate ]. cbn [rbind] in H.
  apply prune_for_co in Q. destruct Q as (c & ->). destruct rm.
  - apply IH in H. destruct H as (d & ->). exists (c ++ d). now rewrite app_assoc.
  - injection H as <- <- <-. now exists c.
Qed.
Lemma prune_while_aligned f : forall ex bnd ex' bnd', prune_while eps g f ex bnd [] = Ok (ex', bnd', []) -> ex = bnd -> ex' = bnd'.
Proof.
  induction f as [|f IH]; intros ex bnd ex' bnd' H E; [ discriminate | ]. cbn [prune_while] in H.
  destruct (prune_for eps g _ _) as [ [[[ex1 bnd1] co1] rm] | ] eqn:Q; [ | discriminate ]. cbn [rbind] in H.
  destruct rm.
  - destruct (prune_while_co _ _ _ _ _ _ _ H) as (d & D). symmetry in D. apply app_eq_nil in D. destruct D as [ -> -> ].
    apply prune_for_aligned in Q; [ | exact E ]. exact (IH _ _ _ _ H Q).
  - injection H as <- <- ->. now apply prune_for_aligned in Q.
Qed.
End Prune.
Lemma valid_gaps {T} {N : Num T} (g : cfg T) t : is_valid g t = true -> (g_minp g <= 1 + far_count (g_dist g) (t_pts t))%Z.
Proof. unfold is_valid. rewrite !andb_true_iff. intros [ _ H ]. now apply Z.leb_le. Qed.
