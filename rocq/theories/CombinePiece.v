(** Facts about piecewise curves and blending, and the meaning of arbitrary
    expressions built from the operators. *)
From Coq Require Import List ZArith QArith Qcanon Bool Lia Lqa Sorting.Sorted.
From Verif Require Import Base Num NumFacts Interval IntervalFacts Curve BaseFacts Combine CombineFacts CombineTop CombineLine.
Import ListNotations.

Notation pieces := (list (xcrv * ival xq)).

(** ** Piecewise *)

(** The sub-domains are in ascending order and do not overlap. *)
Definition before_i (d e : ival xq) : Prop := forall x y, notnan x -> notnan y -> imem d x -> imem e y -> lt_x x y.
Definition ascending (ds : list (ival xq)) : Prop := StronglySorted before_i ds.

Lemma imem_ends d x : iok d -> notnan x -> before_end d x -> after_start d x -> imem d x.
Proof. intros _ _ [_ A] [_ B]. split; auto. Qed.
Lemma imem_before_end d x : notnan x -> imem d x -> before_end d x.
Proof. intros Hx [A B]. split; auto. exists x. split; auto. split; auto. Qed.
Lemma imem_after_start d x : notnan x -> imem d x -> after_start d x.
Proof. intros Hx [A B]. split; auto. exists x. split; auto. split; auto. Qed.

(** a number to the right of a member and before the end is a member *)
Lemma imem_convex d x z : iok d -> notnan x -> notnan z -> imem d z -> lt_x z x -> before_end d x -> imem d x.
Proof.
  intros [H1 H2] Hx Hz [A B] L [_ E]. split; auto.
  revert A L. destruct (i_so d); rewrite ?lt_x_emb, ?le_x_emb by auto; intros; lra.
Qed.

Lemma piecewise_y_in (ps : pieces) f d x : ascending (map snd ps) -> Forall iok (map snd ps) -> notnan x ->
  In (f, d) ps -> imem d x -> piecewise_y ps x = c_y f x.
Proof.
  induction ps as [|[f0 d0] ps IH]; intros S K Hx I M; [destruct I|].
  cbn [map snd] in *. inversion S as [|? ? S' Fo]; subst. inversion K as [|? ? K0 K']; subst.
  cbn [piecewise_y]. destruct I as [I|I].
  - inversion I; subst.
    rewrite (proj2 (contains_end_iff d x K0 Hx) (imem_before_end d x Hx M)).
    rewrite (proj2 (contains_start_iff d x K0 Hx) (imem_after_start d x Hx M)). reflexivity.
  - assert (Bd : before_i d0 d).
    { rewrite Forall_forall in Fo. apply Fo. change d with (snd (f, d)). now apply in_map. }
    destruct (i_contains_gen false true d0 x) eqn:E; cbn [negb]; [|now apply IH].
    exfalso. apply contains_end_iff in E; auto. pose proof E as E'. destruct E' as [[z [Hz Mz]] _].
    pose proof (Bd z x Hz Hx Mz M) as L.
    pose proof (imem_convex d0 x z K0 Hx Hz Mz L E) as M0.
    pose proof (Bd x x Hx Hx M0 M) as L'. rewrite lt_x_emb in L' by auto. lra.
Qed.
Lemma piecewise_y_out (ps : pieces) x : Forall iok (map snd ps) -> notnan x ->
  (forall f d, In (f, d) ps -> ~ imem d x) -> piecewise_y ps x = Ok None.
Proof.
  induction ps as [|[f0 d0] ps IH]; intros K Hx O; [reflexivity|].
  cbn [map snd] in *. inversion K as [|? ? K0 K']; subst. cbn [piecewise_y].
  destruct (i_contains_gen false true d0 x) eqn:E; cbn [negb].
  - destruct (i_contains_gen true false d0 x) eqn:E'; cbn [negb]; auto. exfalso.
    apply contains_end_iff in E; auto. apply contains_start_iff in E'; auto.
    apply (O f0 d0); [simpl; auto|]. now apply imem_ends.
  - apply IH; auto. intros f d I. apply (O f d). simpl; auto.
Qed.
Lemma nan_dec (x : xq) : notnan x \/ x = XNaN.
Proof. destruct x; auto; left; discriminate. Qed.
Lemma piecewise_unique (ps : pieces) : ascending (map snd ps) -> forall x i j f d g e, notnan x ->
  nth_error ps i = Some (f, d) -> nth_error ps j = Some (g, e) -> imem d x -> imem e x -> i = j.
Proof.
  intros S x i j f d g e Hx A B C D.
  assert (W : forall (qs : pieces) i j f d g e, ascending (map snd qs) -> nth_error qs i = Some (f, d) ->
     nth_error qs j = Some (g, e) -> imem d x -> imem e x -> (i < j)%nat -> False).
  { clear. intros qs. induction qs as [|q qs IH]; intros i j f d g e S A B C D L; [destruct i; discriminate|].
    cbn [map] in S. inversion S as [|? ? S' Fo]; subst. destruct j as [|j]; [lia|]. destruct i as [|i].
    - cbn in A, B. inversion A; subst. apply nth_error_In in B.
      assert (Bd : before_i d e).
      { rewrite Forall_forall in Fo. apply Fo. change e with (snd (g, e)). now apply in_map. }
      destruct (nan_dec x) as [N|N].
      + pose proof (Bd x x N N C D) as Z. rewrite lt_x_emb in Z by auto. lra.
      + subst. destruct C as [C _]. unfold lt_x, le_x in C. destruct (i_so d), (i_start d); discriminate.
    - cbn in A, B. apply (IH i j f d g e); auto. lia. }
  destruct (Nat.lt_trichotomy i j) as [L|[L|L]]; auto; exfalso.
  - exact (W ps i j f d g e S A B C D L).
  - exact (W ps j i g e f d S B A D C L).
Qed.

(** x_next and x_previous of a piecewise curve never report a point of a piece:
    the only numbers they can return are the two ends of its domain list. *)
Lemma piecewise_next_only nr (ps : pieces) x ms lim t : piecewise_next nr ps x ms lim = Ok (Some t) ->
  exists f d, last_opt ps = Some (f, d) /\ t = i_end d /\ i_contains d x = true.
Proof.
  unfold piecewise_next. destruct (resolve_min_step None ms) as [m|]; [|discriminate].
  destruct (negb _); [discriminate|].
  destruct (rmapM _ ps) as [xs|e]; cbn [rbind]; [|discriminate].
  destruct (any_candidate _ _) as [[|]|e]; cbn [rbind]; try discriminate.
  destruct (last_opt ps) as [[f d]|]; [|discriminate].
  destruct (i_contains d x) eqn:E; intros H; inversion H; subst. eauto.
Qed.
Lemma piecewise_prev_only nr (ps : pieces) x ms lim t : piecewise_prev nr ps x ms lim = Ok (Some t) ->
  exists f d, head_opt ps = Some (f, d) /\ t = i_start d /\ i_contains d x = true.
Proof.
  unfold piecewise_prev. destruct (resolve_min_step None ms) as [m|]; [|discriminate].
  destruct (negb _); [discriminate|].
  destruct (rmapM _ ps) as [xs|e]; cbn [rbind]; [|discriminate].
  destruct (any_candidate _ _) as [[|]|e]; cbn [rbind]; try discriminate.
  destruct ps as [|[f d] ps]; [discriminate|].
  destruct (i_contains d x) eqn:E; intros H; inversion H; subst. cbn. eauto.
Qed.

(** ** Blend *)
Section Blend.
Variables (nr right : bool) (f g : xcrv) (a b : Qc).
Hypothesis Hf : iok (c_dom f).
Hypothesis Hg : iok (c_dom g).
Hypothesis Hab : (a < b)%Qc.
Hypothesis Ha : lt_x (i_start (c_dom f)) (Fin a).
Hypothesis Hb : lt_x (Fin b) (i_end (c_dom f)).

Let mid := aggregate false None (blend_f (Fin a) (Fin b)) [f; g].
Let d1 := mkI (i_start (c_dom f)) (Fin a) (i_so (c_dom f)) right.
Let d2 := mkI (Fin a) (Fin b) (negb right) right.
Let d3 := mkI (Fin b) (i_end (c_dom f)) (negb right) (i_eo (c_dom f)).
Let ps : pieces := [(f, d1); (mid, d2); (g, d3)].

Lemma blend_is : blend nr right f g (Fin a) (Fin b) = Ok (piecewise_curve nr ps).
Proof. reflexivity. Qed.

Lemma blend_ok : Forall iok (map snd ps).
Proof.
  destruct Hf as [F1 F2]. repeat constructor; cbn [d1 d2 d3 i_start i_end]; auto; discriminate.
Qed.
Lemma eab : (emb (Fin a) < emb (Fin b))%Q.
Proof. now apply emb_fin_mono. Qed.
Lemma blend_ascending : ascending (map snd ps).
Proof.
  pose proof eab as L. destruct Hf as [F1 F2].
  pose proof Ha as Ha'. pose proof Hb as Hb'. rewrite lt_x_emb in Ha', Hb' by (auto; discriminate).
  assert (B12 : before_i d1 d2 /\ before_i d1 d3 /\ before_i d2 d3).
  { repeat split; intros x y Hx Hy Mx My; apply lt_x_emb; auto;
    apply imem_emem in Mx; auto; try (split; auto; discriminate);
    apply imem_emem in My; auto; try (split; auto; discriminate);
    unfold emem, d1, d2, d3 in *; cbn [i_start i_end i_so i_eo] in *;
    clear -Mx My Ha' Hb' L;
    destruct right, (i_so (c_dom f)), (i_eo (c_dom f)); cbn [negb] in *; lra. }
  destruct B12 as [B12 [B13 B23]].
  unfold ascending, ps. cbn [map snd].
  apply SSorted_cons; [apply SSorted_cons; [apply SSorted_cons; [apply SSorted_nil|]|]|]; auto.
Qed.
Lemma lt_fin p q : (p < q)%Qc -> lt_x (Fin p) (Fin q).
Proof. intros. unfold lt_x. cbn. now apply Qcltb_true. Qed.
Lemma le_fin p q : (p <= q)%Qc -> le_x (Fin p) (Fin q).
Proof. intros. unfold le_x. cbn. now apply Qcleb_true. Qed.

Lemma blend_left x : imem (c_dom f) (Fin x) -> (x < a)%Qc ->
  c_y (piecewise_curve nr ps) (Fin x) = c_y f (Fin x).
Proof.
  intros [M _] L. cbn [piecewise_curve c_y].
  apply (piecewise_y_in ps f d1); auto using blend_ascending, blend_ok with nn; [simpl; auto|].
  split; cbn [d1 i_start i_end i_so i_eo]; auto.
  destruct right; [now apply lt_fin | apply le_fin; now apply Qclt_le_weak].
Qed.
Lemma blend_right x : imem (c_dom f) (Fin x) -> (b < x)%Qc ->
  c_y (piecewise_curve nr ps) (Fin x) = c_y g (Fin x).
Proof.
  intros [_ M] L. cbn [piecewise_curve c_y].
  apply (piecewise_y_in ps g d3); auto using blend_ascending, blend_ok with nn; [simpl; auto|].
  split; cbn [d3 i_start i_end i_so i_eo]; auto.
  destruct right; cbn [negb]; [apply le_fin; now apply Qclt_le_weak | now apply lt_fin].
Qed.
Lemma blend_out x : ~ imem (c_dom f) (Fin x) -> c_y (piecewise_curve nr ps) (Fin x) = Ok None.
Proof.
  intros M. cbn [piecewise_curve c_y]. apply piecewise_y_out; auto using blend_ok with nn.
  pose proof eab as L. destruct Hf as [F1 F2].
  pose proof Ha as Ha'. pose proof Hb as Hb'. rewrite lt_x_emb in Ha', Hb' by (auto; discriminate).
  intros h d I N. apply M. apply imem_emem; auto with nn.
  assert (K : iok d).
  { assert (X : In d (map snd ps)) by (change d with (snd (h, d)); now apply in_map).
    exact (proj1 (Forall_forall _ _) blend_ok d X). }
  apply imem_emem in N; auto with nn.
  destruct I as [I|[I|[I|[]]]]; apply (f_equal snd) in I; cbn [snd] in I; subst d; unfold emem, d1, d2, d3 in *;
    cbn [i_start i_end i_so i_eo] in *;
    destruct right, (i_so (c_dom f)), (i_eo (c_dom f)); cbn [negb] in *; lra.
Qed.
Lemma dab : (b - a)%Qc <> 0%Qc.
Proof. intro E. clear -Hab E. qc_lra. Qed.
(** the cross-fade *)
Lemma blend_mid x p q : (a <= x)%Qc -> (x <= b)%Qc -> imem (c_dom g) (Fin x) ->
  c_y f (Fin x) = Ok (Some (Fin p)) -> c_y g (Fin x) = Ok (Some (Fin q)) ->
  c_y (piecewise_curve nr ps) (Fin x) =
    Ok (Some (Fin ((1 - (x - a) / (b - a)) * p + (x - a) / (b - a) * q)%Qc)).
Proof.
  intros L1 L2 Mg Ef Eg. pose proof dab as D.
  assert (Mf : imem (c_dom f) (Fin x)).
  { destruct Hf as [F1 F2]. apply imem_emem; auto with nn.
    pose proof Ha as Ha'. pose proof Hb as Hb'. rewrite lt_x_emb in Ha', Hb' by (auto; discriminate).
    pose proof (le_fin _ _ L1) as X1. pose proof (le_fin _ _ L2) as X2.
    rewrite le_x_emb in X1, X2 by discriminate. unfold emem. destruct (i_so (c_dom f)), (i_eo (c_dom f)); lra. }
  cbn [piecewise_curve c_y].
  assert (Mid : c_y mid (Fin x) = Ok (Some (Fin ((1 - (x - a) / (b - a)) * p + (x - a) / (b - a) * q)%Qc))).
  { unfold mid. rewrite agg2_y by (auto; discriminate).
    rewrite (proj2 (contains_iff _ _ Hf (notnan_fin x)) Mf), (proj2 (contains_iff _ _ Hg (notnan_fin x)) Mg).
    cbn [andb]. rewrite Ef, Eg. cbn [rbind]. unfold blend_f.
    cbn [n_sub n_div XQ xq_sub xq_div]. rewrite (proj2 (Qceqb_false _ _) D). reflexivity. }
  destruct (Qc_dec x a) as [[C|C]|C].
  - exfalso. clear -C L1. qc_lra.
  - destruct (Qc_dec x b) as [[C'|C']|C'].
    + rewrite (piecewise_y_in ps mid d2); auto using blend_ascending, blend_ok with nn; [simpl; auto|].
      split; cbn [d2 i_start i_end i_so i_eo]; destruct right; cbn [negb];
        first [now apply lt_fin | apply le_fin; now apply Qclt_le_weak].
    + exfalso. clear -C' L2. qc_lra.
    + subst x. destruct (bool_dec right true) as [R|R]; [|apply not_true_is_false in R].
      * rewrite (piecewise_y_in ps g d3); auto using blend_ascending, blend_ok with nn; [|simpl; auto|].
        -- rewrite Eg. do 3 f_equal. field. auto.
        -- split; cbn [d3 i_start i_end i_so i_eo]; rewrite ?R; cbn [negb]; [apply le_fin; apply Qcle_refl | apply Mf].
      * rewrite (piecewise_y_in ps mid d2); auto using blend_ascending, blend_ok with nn; [simpl; auto|].
        split; cbn [d2 i_start i_end i_so i_eo]; rewrite ?R; cbn [negb]; [now apply lt_fin | apply le_fin; apply Qcle_refl].
  - subst x. destruct (bool_dec right true) as [R|R]; [|apply not_true_is_false in R].
    + rewrite (piecewise_y_in ps mid d2); auto using blend_ascending, blend_ok with nn; [simpl; auto|].
      split; cbn [d2 i_start i_end i_so i_eo]; rewrite ?R; cbn [negb]; [apply le_fin; apply Qcle_refl | now apply lt_fin].
    + rewrite (piecewise_y_in ps f d1); auto using blend_ascending, blend_ok with nn; [|simpl; auto|].
      * rewrite Ef. do 3 f_equal. field. auto.
      * split; cbn [d1 i_start i_end i_so i_eo]; rewrite ?R; cbn [negb]; [apply Mf | apply le_fin; apply Qcle_refl].
Qed.
End Blend.
