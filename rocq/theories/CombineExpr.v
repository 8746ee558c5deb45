(** Expressions of any depth built from the operators denote what they say. *)
From Coq Require Import List ZArith QArith Qcanon Bool Lia Lqa Sorting.Sorted.
From Verif Require Import Base Num NumFacts Interval IntervalFacts Curve BaseFacts Combine CombineFacts CombineTop CombineLine.
Import ListNotations.

Inductive bop := BAdd | BSub | BMul | BDiv | BMin | BMax.
Inductive expr :=
| ELeaf (c : xcrv)                  (* any curve *)
| ENum (v : xq)                     (* a number *)
| EBin (o : bop) (a b : expr)       (* a + b, a - b, a * b, a / b, Curve.min, Curve.max *)
| ENeg (e : expr) | EAbs (e : expr) | EInv (e : expr)
| EShift (k : Qc) (e : expr)        (* e.offset(k) *)
| ECut (d : ival xq) (e : expr).    (* e.subset(d) *)

(** The curve object the Python operators build. *)
Fixpoint build (e : expr) : xcrv :=
  match e with
  | ELeaf c => c
  | ENum v => constant_curve v None
  | EBin BAdd a b => add_many [build a; build b]
  | EBin BSub a b => subtract_many [build a; build b]
  | EBin BMul a b => multiply_many [build a; build b]
  | EBin BDiv a b => divide_many [build a; build b]
  | EBin BMin a b => curve_min false [build a; build b]
  | EBin BMax a b => curve_max false [build a; build b]
  | ENeg e => additive_inverse (build e)
  | EAbs e => abs_curve (build e)
  | EInv e => multiplicative_inverse (build e)
  | EShift k e => offset_curve (Fin k) (build e)
  | ECut d e => subset d (build e)
  end.

(** Where an expression is defined *)
Fixpoint in_dom (e : expr) (x : Qc) : Prop :=
  match e with
  | ELeaf c => imem (c_dom c) (Fin x)
  | ENum _ => True
  | EBin _ a b => in_dom a x /\ in_dom b x
  | ENeg e | EAbs e | EInv e => in_dom e x
  | EShift k e => in_dom e (x - k)%Qc
  | ECut d _ => imem d (Fin x)
  end.

(** What an operator makes of two defined values *)
Inductive op2 : bop -> xq -> xq -> xq -> Prop :=
| o_add a b : op2 BAdd a b (xq_add a b)
| o_sub a b : op2 BSub a b (xq_sub a b)
| o_mul a b : op2 BMul a b (xq_mul a b)
| o_div a b q : b <> Fin 0%Qc -> xq_div a b = Ok q -> op2 BDiv a b q
| o_div_pos a : le_x (Fin 0%Qc) a -> op2 BDiv a (Fin 0%Qc) PInf
| o_div_neg a : lt_x a (Fin 0%Qc) -> op2 BDiv a (Fin 0%Qc) NInf
| o_min_l a b : le_x a b -> op2 BMin a b a
| o_min_r a b : lt_x b a -> op2 BMin a b b
| o_max_l a b : le_x b a -> op2 BMax a b a
| o_max_r a b : lt_x a b -> op2 BMax a b b.
Definition selects (o : bop) : bool := match o with BMin | BMax => true | _ => false end.

(** The value of an expression at a number *)
Inductive means : expr -> Qc -> option xq -> Prop :=
| m_leaf c x v : c_y c (Fin x) = Ok v -> means (ELeaf c) x v
| m_num v x : means (ENum v) x (Some v)
| m_bin o a b x va vb r : in_dom a x -> in_dom b x -> means a x (Some va) -> means b x (Some vb) ->
    op2 o va vb r -> means (EBin o a b) x (Some r)
| m_bin_none o a b x va vb : in_dom a x -> in_dom b x -> means a x va -> means b x vb ->
    va = None \/ vb = None -> selects o = false -> means (EBin o a b) x None
| m_sel_l o a b x va : in_dom a x -> in_dom b x -> means a x va -> means b x None ->
    selects o = true -> means (EBin o a b) x va
| m_sel_r o a b x vb : in_dom a x -> in_dom b x -> means a x None -> means b x vb ->
    selects o = true -> means (EBin o a b) x vb
| m_bin_out o a b x : ~ (in_dom a x /\ in_dom b x) -> means (EBin o a b) x None
| m_neg e x v : means e x v -> means (ENeg e) x (option_map xq_opp v)
| m_abs_pos e x v : means e x (Some v) -> le_x (Fin 0%Qc) v -> means (EAbs e) x (Some v)
| m_abs_neg e x v : means e x (Some v) -> lt_x v (Fin 0%Qc) -> means (EAbs e) x (Some (xq_opp v))
| m_abs_none e x : means e x None -> means (EAbs e) x None
| m_inv e x q : means e x (Some (Fin q)) -> q <> 0%Qc -> means (EInv e) x (Some (Fin (/ q)%Qc))
| m_inv_none e x : means e x None -> means (EInv e) x None
| m_shift k e x v : in_dom e (x - k)%Qc -> means e (x - k)%Qc v -> means (EShift k e) x v
| m_shift_out k e x : ~ in_dom e (x - k)%Qc -> means (EShift k e) x None
| m_cut d e x v : imem d (Fin x) -> means e x v -> means (ECut d e) x v
| m_cut_out d e x : ~ imem d (Fin x) -> means (ECut d e) x None.

(** the intervals occurring in an expression have numbers as ends *)
Fixpoint well_formed (e : expr) : Prop :=
  match e with
  | ELeaf c => iok (c_dom c)
  | ENum _ => True
  | EBin _ a b => well_formed a /\ well_formed b
  | ENeg e | EAbs e | EInv e => well_formed e
  | EShift _ e => well_formed e
  | ECut d e => iok d /\ well_formed e
  end.

Lemma build_ok e : well_formed e -> iok (c_dom (build e)).
Proof.
  induction e as [c|v|o a IHa b IHb|e IH|e IH|e IH|k e IH|d e IH]; cbn [well_formed build]; auto.
  - intros _. apply iok_infinite.
  - intros [A B]. specialize (IHa A). specialize (IHb B).
    destruct o; cbn; apply iok_inter2; auto.
  - intros W. apply offset_interval_ok. auto.
  - intros [A _]. exact A.
Qed.
Lemma infinite_mem x : imem i_infinite (Fin x).
Proof. split; reflexivity. Qed.
Lemma build_dom e x : well_formed e -> imem (c_dom (build e)) (Fin x) <-> in_dom e x.
Proof.
  revert x. induction e as [c|v|o a IHa b IHb|e IH|e IH|e IH|k e IH|d e IH];
    cbn [well_formed build in_dom]; intros x W; try (now apply IH).
  - tauto.
  - split; auto. intros _. apply infinite_mem.
  - destruct W as [A B]. rewrite <- IHa, <- IHb by auto.
    destruct o; apply (inter2_iff _ _ (Fin x)); auto using build_ok; discriminate.
  - cbn [offset_curve c_dom]. rewrite offset_interval_iff. cbn [unoffset_x n_isinf XQ n_sub xq_sub]. now apply IH.
  - tauto.
Qed.

Lemma div_two t a b r : op2 BDiv a b r -> div_f t [Some a; Some b] = Ok (Some (r : xq)).
Proof.
  intros O. pose proof (div_f_snoc t [Some a] a b) as S. cbn [app] in S.
  destruct S as [S1 [S2 S3]]; [discriminate | reflexivity |].
  inversion O; subst; auto.
  - destruct (S3 H) as [q [E F]]. congruence.
  - apply S2; auto. unfold le_x, lt_x in *. destruct a as [q| | |]; cbn in *; try discriminate.
    apply Qcltb_true in H. intro Z. apply Qcleb_true in Z. clear -H Z. qc_lra.
Qed.
Lemma le_lt_false a b : le_x a b -> xq_ltb b a = false.
Proof.
  unfold le_x. destruct a as [p| | |], b as [q| | |]; cbn; try discriminate; auto.
  intros H. apply Qcleb_true in H. now apply Qcltb_false.
Qed.
Lemma bin_some o a b t va vb r : iok (c_dom (build a)) -> iok (c_dom (build b)) ->
  imem (c_dom (build a)) (Fin t) -> imem (c_dom (build b)) (Fin t) ->
  c_y (build a) (Fin t) = Ok (Some va) -> c_y (build b) (Fin t) = Ok (Some vb) -> op2 o va vb r ->
  c_y (build (EBin o a b)) (Fin t) = Ok (Some r).
Proof.
  intros Ka Kb Ma Mb Ea Eb O.
  assert (C : forall tf : xq -> list (option xq) -> res (option xq), c_y (aggregate false None tf [build a; build b]) (Fin t) = tf (Fin t) [Some va; Some vb]).
  { intros tf. rewrite agg2_y by (auto; discriminate).
    rewrite (proj2 (contains_iff _ _ Ka (notnan_fin t)) Ma), (proj2 (contains_iff _ _ Kb (notnan_fin t)) Mb).
    cbn [andb]. rewrite Ea, Eb. reflexivity. }
  destruct o; cbn [build]; unfold add_many, subtract_many, multiply_many, divide_many, curve_min, curve_max; rewrite C.
  - rewrite add_f_two. inversion O; subst. reflexivity.
  - rewrite sub_f_two. inversion O; subst. reflexivity.
  - rewrite mult_f_two. inversion O; subst. reflexivity.
  - now apply div_two.
  - unfold min_vals. cbn [min_vals_loop]. cbn [n_ltb XQ].
    inversion O; subst; [rewrite (le_lt_false r vb) by auto | rewrite H]; reflexivity.
  - unfold max_vals. cbn [max_vals_loop]. unfold n_gtb. cbn [n_ltb XQ].
    inversion O; subst; [rewrite (le_lt_false vb r) by auto | rewrite H]; reflexivity.
Qed.
Lemma bin_vals o a b t va vb : iok (c_dom (build a)) -> iok (c_dom (build b)) ->
  imem (c_dom (build a)) (Fin t) -> imem (c_dom (build b)) (Fin t) ->
  c_y (build a) (Fin t) = Ok va -> c_y (build b) (Fin t) = Ok vb -> va = None \/ vb = None ->
  c_y (build (EBin o a b)) (Fin t) = Ok (if selects o then match va with None => vb | _ => va end else None).
Proof.
  intros Ka Kb Ma Mb Ea Eb O.
  assert (C : forall tf : xq -> list (option xq) -> res (option xq), c_y (aggregate false None tf [build a; build b]) (Fin t) = tf (Fin t) [va; vb]).
  { intros tf. rewrite agg2_y by (auto; discriminate).
    rewrite (proj2 (contains_iff _ _ Ka (notnan_fin t)) Ma), (proj2 (contains_iff _ _ Kb (notnan_fin t)) Mb).
    cbn [andb]. rewrite Ea, Eb. reflexivity. }
  assert (I : In None [va; vb]) by (destruct O; subst; simpl; auto).
  destruct o; cbn [build]; unfold add_many, subtract_many, multiply_many, divide_many, curve_min, curve_max; rewrite C;
    cbn [selects].
  - now apply add_f_none.
  - unfold sub_f. now apply sub_loop_none.
  - unfold mult_f. now apply mult_loop_none.
  - now apply div_f_none.
  - destruct va, vb; try reflexivity. destruct O; discriminate.
  - destruct va, vb; try reflexivity. destruct O; discriminate.
Qed.
Lemma bin_out o a b t : iok (c_dom (build a)) -> iok (c_dom (build b)) ->
  ~ (imem (c_dom (build a)) (Fin t) /\ imem (c_dom (build b)) (Fin t)) ->
  c_y (build (EBin o a b)) (Fin t) = Ok None.
Proof.
  intros Ka Kb N.
  assert (C : forall tf : xq -> list (option xq) -> res (option xq), c_y (aggregate false None tf [build a; build b]) (Fin t) = Ok None).
  { intros tf. rewrite agg2_y by (auto; discriminate).
    destruct (i_contains (c_dom (build a)) (Fin t)) eqn:E1; cbn [andb]; auto.
    destruct (i_contains (c_dom (build b)) (Fin t)) eqn:E2; auto.
    exfalso. apply N. split; apply contains_iff; auto with nn. }
  destruct o; cbn [build]; apply C.
Qed.

Theorem build_means e x v : well_formed e -> means e x v -> c_y (build e) (Fin x) = Ok v.
Proof.
  intros W M. revert W. induction M; cbn [well_formed]; intros W.
  - exact H.
  - reflexivity.
  - destruct W as [Wa Wb]. apply (bin_some o a b x va vb r); auto using build_ok; now apply build_dom.
  - destruct W as [Wa Wb]. rewrite (bin_vals o a b x va vb); auto using build_ok; try (now apply build_dom).
    now rewrite H2.
  - destruct W as [Wa Wb]. rewrite (bin_vals o a b x va None); auto using build_ok; try (now apply build_dom).
    rewrite H1. now destruct va.
  - destruct W as [Wa Wb]. rewrite (bin_vals o a b x None vb); auto using build_ok; try (now apply build_dom).
    now rewrite H1.
  - destruct W as [Wa Wb]. apply bin_out; auto using build_ok. now rewrite !build_dom by auto.
  - cbn [build additive_inverse map_curve c_y]. rewrite IHM by auto. destruct v; reflexivity.
  - cbn [build abs_curve map_curve c_y]. rewrite IHM by auto. cbn [rbind abs_f]. do 2 f_equal.
    unfold le_x in H. destruct v as [q| | |]; cbn in *; auto; try discriminate. now rewrite H.
  - cbn [build abs_curve map_curve c_y]. rewrite IHM by auto. cbn [rbind abs_f]. do 2 f_equal.
    unfold lt_x in H. destruct v as [q| | |]; cbn in *; auto; try discriminate.
    apply Qcltb_true in H. replace (Qcleb 0 q) with false; auto. symmetry. now apply Qcleb_false.
  - cbn [build abs_curve map_curve c_y]. rewrite IHM by auto. reflexivity.
  - cbn [build multiplicative_inverse map_curve c_y]. rewrite IHM by auto.
    cbn [rbind multiplicative_inverse_f]. cbn [n_div XQ]. change (n_one : xq) with (Fin 1%Qc). cbn [xq_div].
    rewrite (proj2 (Qceqb_false _ _) H). cbn [rbind]. do 3 f_equal. field. auto.
  - cbn [build multiplicative_inverse map_curve c_y]. rewrite IHM by auto. reflexivity.
  - cbn [build]. rewrite (proj1 (offset_y k (build e) x (build_ok e W))) by (now apply build_dom). auto.
  - cbn [build]. apply (proj2 (offset_y k (build e) x (build_ok e W))). now rewrite build_dom.
  - destruct W as [Wd We]. cbn [build]. rewrite (proj1 (subset_y d (build e) (Fin x) Wd (notnan_fin x)) H). auto.
  - destruct W as [Wd We]. cbn [build]. apply (proj2 (subset_y d (build e) (Fin x) Wd (notnan_fin x)) H).
Qed.
(** 1 / 0 raises *)
Lemma inv_raises (c : xcrv) x : c_y c x = Ok (Some (Fin 0%Qc)) -> c_y (multiplicative_inverse c) x = Err EZeroDiv.
Proof. intros E. cbn [multiplicative_inverse map_curve c_y]. rewrite E. reflexivity. Qed.
