(** Facts about the derived curves: intervals of many operands, the operator
    transforms, aggregates, maps and offsets. *)
From Coq Require Import List ZArith QArith Qcanon Bool Lia Lqa Permutation Sorting.Sorted.
From Verif Require Import Base Num NumFacts Interval IntervalFacts Curve BaseFacts Combine.
Import ListNotations.

Notation xcrv := (crv xq (option xq)).

(** ** Intersections and hulls of lists of intervals *)

Lemma fold_inter_ok l : forall d, iok d -> Forall iok l -> iok (fold_left i_inter2 l d).
Proof.
  induction l as [|e l IH]; intros d Hd Hl; simpl; auto.
  inversion Hl; subst. apply IH; auto. now apply iok_inter2.
Qed.
Lemma inter_ok l : Forall iok l -> iok (i_inter l).
Proof.
  destruct l as [|d l]; intros H; simpl; [apply iok_empty|].
  inversion H; subst. now apply fold_inter_ok.
Qed.
Lemma fold_inter_iff l : forall d x, iok d -> Forall iok l -> notnan x ->
  imem (fold_left i_inter2 l d) x <-> imem d x /\ Forall (fun e => imem e x) l.
Proof.
  induction l as [|e l IH]; intros d x Hd Hl Hx; simpl.
  - split; [auto|tauto].
  - inversion Hl; subst. rewrite IH, inter2_iff by auto using iok_inter2.
    split; [intros [[A B] C]; auto | intros [A B]; inversion B; subst; auto].
Qed.
(** A number is in the intersection iff it is in every operand. *)
Lemma inter_iff l x : l <> [] -> Forall iok l -> notnan x ->
  imem (i_inter l) x <-> Forall (fun d => imem d x) l.
Proof.
  destruct l as [|d l]; [congruence|]. intros _ H Hx. inversion H; subst. simpl.
  rewrite fold_inter_iff by auto.
  split; [intros [A B]; auto | intros A; inversion A; subst; auto].
Qed.

Lemma fold_union_ok l : forall d, iok d -> Forall iok l -> iok (fold_left i_union2 l d).
Proof.
  induction l as [|e l IH]; intros d Hd Hl; simpl; auto.
  inversion Hl; subst. apply IH; auto. now apply iok_union2.
Qed.
Lemma union_ok l : Forall iok l -> iok (i_union l).
Proof. intros. apply fold_union_ok; auto. apply iok_empty. Qed.
Lemma fold_union_cover l : forall d, iok d -> Forall iok l ->
  i_superset (fold_left i_union2 l d) d = true /\
  Forall (fun e => i_superset (fold_left i_union2 l d) e = true) l.
Proof.
  induction l as [|e l IH]; intros d Hd Hl; simpl.
  - split; auto. now apply superset_refl.
  - inversion Hl as [|? ? He Hl']; subst.
    assert (Hu : iok (i_union2 d e)) by (now apply iok_union2).
    assert (Hf : iok (fold_left i_union2 l (i_union2 d e))) by (now apply fold_union_ok).
    destruct (IH (i_union2 d e) Hu Hl') as [A B]. split; [|constructor; auto].
    + eapply (superset_trans _ (i_union2 d e)); auto. now apply union2_superset_l.
    + eapply (superset_trans _ (i_union2 d e)); auto. now apply union2_superset_r.
Qed.
Lemma fold_union_least l : forall d c, iok d -> iok c -> Forall iok l ->
  i_superset c d = true -> Forall (fun e => i_superset c e = true) l ->
  i_superset c (fold_left i_union2 l d) = true.
Proof.
  induction l as [|e l IH]; intros d c Hd Hc Hl Hs Hf; simpl; auto.
  inversion Hl; inversion Hf; subst. apply IH; auto using iok_union2. now apply union2_least.
Qed.
(** The hull contains every operand, and every interval that does contains the hull. *)
Lemma union_cover l d x : Forall iok l -> In d l -> notnan x -> imem d x -> imem (i_union l) x.
Proof.
  intros Hl Hd Hx M. destruct (fold_union_cover l i_empty iok_empty Hl) as [_ F].
  rewrite Forall_forall in F, Hl. specialize (F d Hd).
  apply (proj1 (superset_iff _ _ (union_ok l (proj2 (Forall_forall _ _) Hl)) (Hl d Hd)) F x Hx M).
Qed.
Lemma union_least l c x : Forall iok l -> iok c -> notnan x ->
  (forall d z, In d l -> notnan z -> imem d z -> imem c z) -> imem (i_union l) x -> imem c x.
Proof.
  intros Hl Hc Hx H M.
  assert (S : i_superset c (i_union l) = true).
  { apply fold_union_least; auto; try apply iok_empty.
    - rewrite Forall_forall in *. intros d Hd. apply superset_iff; auto. intros z Hz. now apply (H d). }
  apply (proj1 (superset_iff _ _ Hc (union_ok l Hl)) S x Hx M).
Qed.

(** ** Extended arithmetic *)
Lemma xq_add_comm a b : xq_add a b = xq_add b a.
Proof. destruct a, b; simpl; auto. f_equal. apply Qcplus_comm. Qed.
Lemma xq_add_assoc a b c : xq_add (xq_add a b) c = xq_add a (xq_add b c).
Proof. destruct a, b, c; simpl; auto. f_equal. symmetry. apply Qcplus_assoc. Qed.
Lemma xq_add_0 a : xq_add (Fin 0%Qc) a = a.
Proof. destruct a; simpl; auto. f_equal. apply Qcplus_0_l. Qed.
Lemma n_zero_q : (n_zero : xq) = Fin 0%Qc.
Proof. reflexivity. Qed.
Lemma n_one_q : (n_one : xq) = Fin 1%Qc.
Proof. reflexivity. Qed.
Lemma xq_mul_comm a b : xq_mul a b = xq_mul b a.
Proof. destruct a, b; simpl; auto. f_equal. apply Qcmult_comm. Qed.
Lemma xq_mul_1 a : xq_mul (Fin 1%Qc) a = a.
Proof. destruct a; simpl; auto. f_equal. apply Qcmult_1_l. Qed.

Lemma sgn_lt q : xq_sgn q = Lt <-> (0 < q)%Qc.
Proof. unfold xq_sgn. symmetry. apply Qclt_alt. Qed.
Lemma sgn_gt q : xq_sgn q = Gt <-> (q < 0)%Qc.
Proof. unfold xq_sgn. symmetry. apply Qcgt_alt. Qed.
Lemma sgn_eq q : xq_sgn q = Eq <-> q = 0%Qc.
Proof. unfold xq_sgn. rewrite <- Qceq_alt. split; auto. Qed.
Inductive sgn_case (q : Qc) : comparison -> Prop :=
| sgn_pos : (0 < q)%Qc -> sgn_case q Lt
| sgn_neg : (q < 0)%Qc -> sgn_case q Gt
| sgn_zero : q = 0%Qc -> sgn_case q Eq.
Lemma sgn_spec q : sgn_case q (xq_sgn q).
Proof.
  destruct (xq_sgn q) eqn:E; constructor; [now apply sgn_eq | now apply sgn_lt | now apply sgn_gt].
Qed.
Lemma sgn_mul p q : xq_sgn (p * q) =
  match xq_sgn p, xq_sgn q with
  | Eq, _ | _, Eq => Eq
  | Lt, Lt | Gt, Gt => Lt
  | _, _ => Gt
  end.
Proof.
  destruct (sgn_spec p) as [A|A|A]; destruct (sgn_spec q) as [B|B|B]; subst;
    try (apply sgn_eq; ring);
    (apply sgn_lt || apply sgn_gt); clear -A B; qc_nra.
Qed.
Lemma xq_mul_assoc a b c : xq_mul (xq_mul a b) c = xq_mul a (xq_mul b c).
Proof.
  assert (M : (Fin 0 = Fin 0)%Qc) by auto.
  destruct a as [p| | |], b as [q| | |], c as [r| | |]; simpl; auto;
    try (f_equal; symmetry; apply Qcmult_assoc);
    unfold xq_mulinf; rewrite ?sgn_mul;
    repeat match goal with |- context [xq_sgn ?z] => destruct (xq_sgn z) eqn:? end;
    simpl; unfold xq_mulinf; rewrite ?sgn_mul;
    repeat match goal with H : xq_sgn ?z = _ |- _ => rewrite H; clear H end; auto.
Qed.

Lemma xq_sub_add a b : xq_sub a b = xq_add a (xq_opp b).
Proof. destruct a, b; reflexivity. Qed.
Lemma xq_opp_add a b : xq_opp (xq_add a b) = xq_add (xq_opp a) (xq_opp b).
Proof. destruct a, b; simpl; auto. f_equal. ring. Qed.

(** ** Evaluating the operands *)

Lemma rmapM_ok {A B} (g : A -> res B) l vs :
  Forall2 (fun a v => g a = Ok v) l vs -> rmapM g l = Ok vs.
Proof. induction 1 as [|a v l vs E H IH]; simpl; auto. rewrite E. simpl. rewrite IH. reflexivity. Qed.
Lemma rmapM_inv {A B} (g : A -> res B) l : forall vs,
  rmapM g l = Ok vs -> Forall2 (fun a v => g a = Ok v) l vs.
Proof.
  induction l as [|a l IH]; simpl; intros vs H; [inversion H; constructor|].
  destruct (g a) as [v|e] eqn:E; simpl in H; [|discriminate].
  destruct (rmapM g l) as [vs'|e] eqn:E'; simpl in H; [|discriminate].
  inversion H; subst. constructor; auto.
Qed.

Definition doms_ok {V} (funcs : list (crv xq V)) : Prop := Forall (fun f => iok (c_dom f)) funcs.
Definition all_in {V} (funcs : list (crv xq V)) (x : xq) : Prop := Forall (fun f => imem (c_dom f) x) funcs.
Definition evals {V} (funcs : list (crv xq V)) (x : xq) (vs : list V) : Prop :=
  Forall2 (fun f v => c_y f x = Ok v) funcs vs.

Lemma agg_dom_ok {V} u (funcs : list (crv xq V)) : doms_ok funcs -> iok (agg_dom u funcs).
Proof.
  intros H. assert (F : Forall iok (map c_dom funcs)) by (now apply Forall_map).
  unfold agg_dom. destruct u; [now apply union_ok | now apply inter_ok].
Qed.
Lemma agg_inter_iff {V} (funcs : list (crv xq V)) x : funcs <> [] -> doms_ok funcs -> notnan x ->
  imem (agg_dom false funcs) x <-> all_in funcs x.
Proof.
  intros N H Hx. unfold agg_dom. rewrite inter_iff.
  - unfold all_in. now rewrite Forall_map.
  - destruct funcs; [congruence|discriminate].
  - now apply Forall_map.
  - auto.
Qed.
Lemma agg_hull_cover {V} (funcs : list (crv xq V)) f x : doms_ok funcs -> In f funcs -> notnan x ->
  imem (c_dom f) x -> imem (agg_dom true funcs) x.
Proof.
  intros H I Hx M. unfold agg_dom. eapply (union_cover _ (c_dom f)); eauto.
  - now apply Forall_map.
  - now apply in_map.
Qed.
Lemma agg_hull_least {V} (funcs : list (crv xq V)) c x : doms_ok funcs -> iok c -> notnan x ->
  (forall f z, In f funcs -> notnan z -> imem (c_dom f) z -> imem c z) ->
  imem (agg_dom true funcs) x -> imem c x.
Proof.
  intros H Hc Hx L. unfold agg_dom. apply union_least; auto.
  - now apply Forall_map.
  - intros d z I Hz. apply in_map_iff in I. destruct I as [f [E I]]. subst. now apply (L f).
Qed.

Lemma agg_y_in {V W} u (d : W) t (funcs : list (crv xq V)) x vs : doms_ok funcs -> notnan x ->
  imem (agg_dom u funcs) x -> evals funcs x vs -> c_y (aggregate u d t funcs) x = t x vs.
Proof.
  intros H Hx M E. unfold aggregate. cbn [c_y].
  rewrite (proj2 (contains_iff _ x (agg_dom_ok u funcs H) Hx) M). cbn [negb].
  rewrite (rmapM_ok _ _ _ E). reflexivity.
Qed.
Lemma agg_y_out {V W} u (d : W) t (funcs : list (crv xq V)) x : doms_ok funcs -> notnan x ->
  ~ imem (agg_dom u funcs) x -> c_y (aggregate u d t funcs) x = Ok d.
Proof.
  intros H Hx M. unfold aggregate. cbn [c_y].
  destruct (i_contains (agg_dom u funcs) x) eqn:E; [|reflexivity].
  apply contains_iff in E; auto using agg_dom_ok. contradiction.
Qed.

(** ** The operator transforms *)

Lemma has_none_iff (ys : list (option xq)) : has_none ys = true <-> In None ys.
Proof.
  induction ys as [|[y|] ys IH]; simpl.
  - split; [discriminate|tauto].
  - rewrite IH. split; [auto|intros [H|H]; [discriminate|auto]].
  - split; auto.
Qed.
Lemma has_none_somes (vs : list xq) : has_none (map Some vs) = false.
Proof. induction vs; simpl; auto. Qed.
Lemma somes_map (vs : list xq) : somes (map Some vs) = vs.
Proof. induction vs; simpl; congruence. Qed.
Lemma no_none (ys : list (option xq)) : has_none ys = false -> ys = map Some (somes ys).
Proof. induction ys as [|[y|] ys IH]; simpl; intros; try discriminate; auto. f_equal. auto. Qed.

Lemma fold_add (l : list xq) : forall z, fold_left n_add l z = xq_add z (fold_right xq_add (Fin 0%Qc) l).
Proof.
  induction l as [|y l IH]; intros z; cbn [fold_left fold_right].
  - rewrite xq_add_comm, xq_add_0. reflexivity.
  - rewrite IH. cbn [n_add XQ]. apply xq_add_assoc.
Qed.
Lemma fold_mul (l : list xq) : forall z, fold_left n_mul l z = xq_mul z (fold_right xq_mul (Fin 1%Qc) l).
Proof.
  induction l as [|y l IH]; intros z; cbn [fold_left fold_right].
  - rewrite xq_mul_comm, xq_mul_1. reflexivity.
  - rewrite IH. cbn [n_mul XQ]. apply xq_mul_assoc.
Qed.
Lemma fold_sub (l : list xq) : forall z, fold_left n_sub l z = xq_sub z (fold_right xq_add (Fin 0%Qc) l).
Proof.
  induction l as [|y l IH]; intros z; cbn [fold_left fold_right].
  - rewrite xq_sub_add. change (xq_opp (Fin 0%Qc)) with (Fin (- 0%Qc)).
    replace (- 0)%Qc with 0%Qc by ring. rewrite xq_add_comm, xq_add_0. reflexivity.
  - rewrite IH. cbn [n_sub XQ]. rewrite !xq_sub_add, xq_opp_add. apply xq_add_assoc.
Qed.

Lemma add_f_some t vs : add_f t (map Some vs) = Ok (Some (fold_right xq_add (Fin 0%Qc) vs)).
Proof.
  unfold add_f. rewrite has_none_somes, somes_map, fold_add.
  change (n_zero : xq) with (Fin 0%Qc). now rewrite xq_add_0.
Qed.
Lemma add_f_none t ys : In None ys -> add_f t ys = Ok (None : option xq).
Proof. intros H. unfold add_f. now rewrite (proj2 (has_none_iff ys) H). Qed.

Lemma mult_loop_some vs : forall z : xq, mult_loop z (map Some vs) = Ok (Some (fold_left n_mul vs z)).
Proof. induction vs; intros; simpl; auto. Qed.
Lemma mult_loop_none ys : forall z : xq, In None ys -> mult_loop z ys = Ok None.
Proof.
  induction ys as [|[y|] ys IH]; simpl; intros z H; [tauto| |auto].
  destruct H as [H|H]; [discriminate|auto].
Qed.
Lemma mult_f_some t vs : mult_f t (map Some vs) = Ok (Some (fold_right xq_mul (Fin 1%Qc) vs)).
Proof.
  unfold mult_f. rewrite mult_loop_some, fold_mul.
  change (n_one : xq) with (Fin 1%Qc). now rewrite xq_mul_1.
Qed.
Lemma sub_loop_some vs : forall z : xq, sub_loop false z (map Some vs) = Ok (Some (fold_left n_sub vs z)).
Proof. induction vs; intros; simpl; auto. Qed.
Lemma sub_loop_none ys : forall b (z : xq), In None ys -> sub_loop b z ys = Ok None.
Proof.
  induction ys as [|[y|] ys IH]; simpl; intros b z H; [tauto| |auto].
  destruct H as [H|H]; [discriminate|auto].
Qed.
Lemma sub_f_some t v vs : sub_f t (map Some (v :: vs)) = Ok (Some (xq_sub v (fold_right xq_add (Fin 0%Qc) vs))).
Proof. unfold sub_f. simpl. now rewrite sub_loop_some, fold_sub. Qed.

Lemma div_loop_none ys : forall b (z : xq), In None ys -> exists r, div_loop b z ys = r /\ (r = Ok None \/ exists e, r = Err e).
Proof.
  induction ys as [|[y|] ys IH]; intros b z H; [destruct H| |eexists; simpl; eauto].
  destruct H as [H|H]; [discriminate|]. cbn [div_loop n_eqb n_div XQ]. destruct b; [now apply IH|].
  destruct (xq_eqb y n_zero); [now apply IH|].
  destruct (xq_div z y) as [q|e]; cbn [rbind]; [now apply IH|]. eexists; split; eauto.
Qed.
Lemma xq_div_total a b : xq_eqb b (n_zero : xq) = false -> exists q, xq_div a b = Ok q.
Proof.
  unfold xq_div. destruct b as [q| | |]; intros H; try (destruct a; eauto).
  all: change (xq_eqb (Fin q) n_zero) with (Qceqb q 0%Qc) in H; rewrite H; eauto.
Qed.
Lemma div_loop_total ys : forall b (z : xq), exists r, div_loop b z ys = Ok r.
Proof.
  induction ys as [|[y|] ys IH]; intros b z; cbn [div_loop n_eqb n_div XQ]; eauto.
  destruct b; [apply IH|]. destruct (xq_eqb y n_zero) eqn:E; [apply IH|].
  destruct (xq_div_total z y E) as [q Hq]. rewrite Hq. cbn [rbind]. apply IH.
Qed.
Lemma div_f_none t ys : In None ys -> div_f t ys = Ok (None : option xq).
Proof.
  intros H. destruct (div_loop_none ys true n_zero H) as [r [E [F|[e F]]]]; unfold div_f; subst; auto.
  destruct (div_loop_total ys true n_zero) as [r E]. congruence.
Qed.
(** One more divisor, applied to the running result. *)
Lemma div_loop_snoc ys : forall b (z r y : xq), (b = true -> ys <> []) -> div_loop b z ys = Ok (Some r) ->
  div_loop b z (ys ++ [Some y]) = div_loop false r [Some y].
Proof.
  induction ys as [|[w|] ys IH]; intros b z r y N H; cbn [div_loop] in H; [| |discriminate].
  - destruct b; [now destruct (N eq_refl)|]. inversion H; subst. reflexivity.
  - cbn [app div_loop]. destruct b.
    + destruct ys as [|v ys]; [inversion H; subst; reflexivity|]. apply IH; [discriminate|exact H].
    + cbn [n_eqb XQ] in *. destruct (xq_eqb w n_zero) eqn:E; [apply IH; [discriminate|exact H]|].
      destruct (xq_div_total z w E) as [q Hq]. cbn [n_div XQ] in *. rewrite Hq in *. cbn [rbind] in *.
      apply IH; [discriminate|exact H].
Qed.
Lemma div_f_snoc t ys (r y : xq) : ys <> [] -> div_f t ys = Ok (Some r) ->
  (y = Fin 0%Qc -> le_x (Fin 0%Qc) r -> div_f t (ys ++ [Some y]) = Ok (Some PInf)) /\
  (y = Fin 0%Qc -> ~ le_x (Fin 0%Qc) r -> div_f t (ys ++ [Some y]) = Ok (Some NInf)) /\
  (y <> Fin 0%Qc -> exists q, xq_div r y = Ok q /\ div_f t (ys ++ [Some y]) = Ok (Some q)).
Proof.
  intros N H. unfold div_f in *. rewrite (div_loop_snoc ys true n_zero r y) by auto.
  cbn [div_loop]. unfold n_geb. cbn [n_eqb n_leb n_div XQ].
  change (n_zero : xq) with (Fin 0%Qc). unfold le_x. repeat split.
  - intros -> L. simpl xq_eqb. cbv iota. now rewrite L.
  - intros -> L. simpl xq_eqb. cbv iota. destruct (xq_leb (Fin 0) r); [now destruct L | reflexivity].
  - intros D. destruct (xq_eqb y (Fin 0%Qc)) eqn:E.
    + apply xq_eqb_true in E. destruct E; contradiction.
    + destruct (xq_div_total r y E) as [q Hq]. exists q. rewrite Hq. auto.
Qed.
(** Without zero divisors: the first operand divided by the product of the others. *)
Lemma div_loop_exact qs : forall p, Forall (fun q => q <> 0%Qc) qs ->
  div_loop false (Fin p) (map (fun q => Some (Fin q)) qs) = Ok (Some (Fin (p / fold_right Qcmult 1%Qc qs)%Qc)).
Proof.
  induction qs as [|q qs IH]; intros p H.
  - simpl. do 3 f_equal. field. discriminate.
  - inversion H as [|? ? Hq Hqs]; subst. cbn [map div_loop fold_right].
    cbn [n_eqb n_div XQ]. change (n_zero : xq) with (Fin 0%Qc). cbn [xq_eqb].
    rewrite (proj2 (Qceqb_false q 0%Qc) Hq). cbn [xq_div].
    rewrite (proj2 (Qceqb_false q 0%Qc) Hq). cbn [rbind]. rewrite IH by auto. do 3 f_equal.
    assert (P : fold_right Qcmult 1%Qc qs <> 0%Qc).
    { clear -Hqs. induction Hqs as [|q qs Hq H IH]; simpl; [discriminate|].
      intro E. apply Qcmult_integral in E. tauto. }
    field. auto.
Qed.
