(** Facts about the derived curves, continued: selection among operands,
    stepping of aggregates, pairs of operands, maps. *)
From Coq Require Import List ZArith QArith Qcanon Bool Lia Lqa Permutation Sorting.Sorted.
From Verif Require Import Base Num NumFacts Interval IntervalFacts Curve BaseFacts Combine CombineFacts.
Import ListNotations.

(** ** Order of extended numbers that are not nan *)
Lemma le_x_refl a : notnan a -> le_x a a.
Proof. intros. apply le_x_emb; auto. lra. Qed.
Lemma le_x_trans a b c : notnan a -> notnan b -> notnan c -> le_x a b -> le_x b c -> le_x a c.
Proof. intros A B C. rewrite !le_x_emb by auto. lra. Qed.
Lemma lt_x_le a b : notnan a -> notnan b -> lt_x a b -> le_x a b.
Proof. intros A B. rewrite lt_x_emb, le_x_emb by auto. lra. Qed.
Lemma not_lt_x a b : notnan a -> notnan b -> ~ lt_x a b -> le_x b a.
Proof. intros A B. rewrite lt_x_emb, le_x_emb by auto. lra. Qed.
Lemma lt_not_le a b : notnan a -> notnan b -> lt_x a b -> ~ le_x b a.
Proof. intros A B. rewrite lt_x_emb, le_x_emb by auto. lra. Qed.
Lemma lt_x_false a b : xq_ltb a b = false -> notnan a -> notnan b -> le_x b a.
Proof. intros E A B. apply not_lt_x; auto. unfold lt_x. congruence. Qed.

(** ** min_or_none, max_or_none *)
Definition nn_opt (o : option xq) : Prop := forall v, o = Some v -> notnan v.

(** [least l P t]: t is the least element of l satisfying P; None if there is none. *)
Definition least_of (P : xq -> Prop) (l : list (option xq)) (r : option xq) : Prop :=
  match r with
  | None => forall u, In (Some u) l -> ~ P u
  | Some t => In (Some t) l /\ P t /\ forall u, In (Some u) l -> P u -> le_x t u
  end.
Definition greatest_of (P : xq -> Prop) (l : list (option xq)) (r : option xq) : Prop :=
  match r with
  | None => forall u, In (Some u) l -> ~ P u
  | Some t => In (Some t) l /\ P t /\ forall u, In (Some u) l -> P u -> le_x u t
  end.

Lemma min_or_none_gen gt l : forall pre best, notnan gt -> Forall nn_opt (pre ++ l) ->
  least_of (fun u => lt_x gt u) pre best -> least_of (fun u => lt_x gt u) (pre ++ l) (min_or_none gt best l).
Proof.
  induction l as [|[item|] l IH]; intros pre best G F B.
  - rewrite app_nil_r. exact B.
  - cbn [min_or_none].
    replace (pre ++ Some item :: l) with ((pre ++ [Some item]) ++ l) in * by (rewrite <- app_assoc; reflexivity).
    apply IH; auto.
    assert (Hi : notnan item).
    { rewrite Forall_app in F. destruct F as [F _]. rewrite Forall_app in F. destruct F as [_ F].
      inversion F as [|? ? A]; subst. now apply A. }
    assert (Hp : forall u, In (Some u) pre -> notnan u).
    { intros u I. rewrite !Forall_app in F. destruct F as [[F _] _]. rewrite Forall_forall in F. now apply (F _ I). }
    unfold n_gtb. cbn [n_ltb XQ].
    destruct best as [b|].
    + destruct B as [B1 [B2 B3]].
      destruct (xq_ltb item b) eqn:E1; [destruct (xq_ltb gt item) eqn:E2|].
      * split; [apply in_or_app; simpl; auto|]. split; [exact E2|].
        intros u I L. apply in_app_or in I. destruct I as [I|[I|[]]].
        -- apply (le_x_trans _ b); auto. apply lt_x_le; auto.
        -- inversion I; subst. now apply le_x_refl.
      * split; [apply in_or_app; auto|]. split; auto.
        intros u I L. apply in_app_or in I. destruct I as [I|[I|[]]]; auto.
        inversion I; subst. unfold lt_x in L. congruence.
      * split; [apply in_or_app; auto|]. split; auto.
        intros u I L. apply in_app_or in I. destruct I as [I|[I|[]]]; auto.
        inversion I; subst. apply lt_x_false; auto.
    + destruct (xq_ltb gt item) eqn:E2.
      * split; [apply in_or_app; simpl; auto|]. split; [exact E2|].
        intros u I L. apply in_app_or in I. destruct I as [I|[I|[]]].
        -- exfalso. now apply (B u).
        -- inversion I; subst. now apply le_x_refl.
      * intros u I. apply in_app_or in I. destruct I as [I|[I|[]]]; auto.
        inversion I; subst. unfold lt_x. congruence.
  - cbn [min_or_none].
    replace (pre ++ None :: l) with ((pre ++ [None]) ++ l) in * by (rewrite <- app_assoc; reflexivity).
    apply IH; auto. destruct best as [b|].
    + destruct B as [B1 [B2 B3]]. split; [apply in_or_app; auto|]. split; auto.
      intros u I L. apply in_app_or in I. destruct I as [I|[I|[]]]; auto. discriminate.
    + intros u I. apply in_app_or in I. destruct I as [I|[I|[]]]; auto. discriminate.
Qed.
Lemma min_or_none_spec gt l : notnan gt -> Forall nn_opt l ->
  least_of (fun u => lt_x gt u) l (min_or_none gt None l).
Proof. intros. apply (min_or_none_gen gt l [] None); auto. intros u []. Qed.

Lemma max_or_none_gen lt l : forall pre best, notnan lt -> Forall nn_opt (pre ++ l) ->
  greatest_of (fun u => lt_x u lt) pre best -> greatest_of (fun u => lt_x u lt) (pre ++ l) (max_or_none lt best l).
Proof.
  induction l as [|[item|] l IH]; intros pre best G F B.
  - rewrite app_nil_r. exact B.
  - cbn [max_or_none].
    replace (pre ++ Some item :: l) with ((pre ++ [Some item]) ++ l) in * by (rewrite <- app_assoc; reflexivity).
    apply IH; auto.
    assert (Hi : notnan item).
    { rewrite Forall_app in F. destruct F as [F _]. rewrite Forall_app in F. destruct F as [_ F].
      inversion F as [|? ? A]; subst. now apply A. }
    assert (Hp : forall u, In (Some u) pre -> notnan u).
    { intros u I. rewrite !Forall_app in F. destruct F as [[F _] _]. rewrite Forall_forall in F. now apply (F _ I). }
    unfold n_gtb. cbn [n_ltb XQ].
    destruct best as [b|].
    + destruct B as [B1 [B2 B3]].
      destruct (xq_ltb b item) eqn:E1; [destruct (xq_ltb item lt) eqn:E2|].
      * split; [apply in_or_app; simpl; auto|]. split; [exact E2|].
        intros u I L. apply in_app_or in I. destruct I as [I|[I|[]]].
        -- apply (le_x_trans _ b); auto. apply lt_x_le; auto.
        -- inversion I; subst. now apply le_x_refl.
      * split; [apply in_or_app; auto|]. split; auto.
        intros u I L. apply in_app_or in I. destruct I as [I|[I|[]]]; auto.
        inversion I; subst. unfold lt_x in L. congruence.
      * split; [apply in_or_app; auto|]. split; auto.
        intros u I L. apply in_app_or in I. destruct I as [I|[I|[]]]; auto.
        inversion I; subst. apply lt_x_false; auto.
    + destruct (xq_ltb item lt) eqn:E2.
      * split; [apply in_or_app; simpl; auto|]. split; [exact E2|].
        intros u I L. apply in_app_or in I. destruct I as [I|[I|[]]].
        -- exfalso. now apply (B u).
        -- inversion I; subst. now apply le_x_refl.
      * intros u I. apply in_app_or in I. destruct I as [I|[I|[]]]; auto.
        inversion I; subst. unfold lt_x. congruence.
  - cbn [max_or_none].
    replace (pre ++ None :: l) with ((pre ++ [None]) ++ l) in * by (rewrite <- app_assoc; reflexivity).
    apply IH; auto. destruct best as [b|].
    + destruct B as [B1 [B2 B3]]. split; [apply in_or_app; auto|]. split; auto.
      intros u I L. apply in_app_or in I. destruct I as [I|[I|[]]]; auto. discriminate.
    + intros u I. apply in_app_or in I. destruct I as [I|[I|[]]]; auto. discriminate.
Qed.
Lemma max_or_none_spec lt l : notnan lt -> Forall nn_opt l ->
  greatest_of (fun u => lt_x u lt) l (max_or_none lt None l).
Proof. intros. apply (max_or_none_gen lt l [] None); auto. intros u []. Qed.

Lemma agg_next {V W} u (d : W) t (funcs : list (crv xq V)) x ms lim xs : notnan x -> Forall nn_opt xs ->
  Forall2 (fun f r => c_next f x ms lim = Ok r) funcs xs ->
  exists r, c_next (aggregate u d t funcs) x ms lim = Ok r /\ least_of (fun z => lt_x x z) xs r.
Proof.
  intros Hx Hn E. exists (min_or_none x None xs). split; [|now apply min_or_none_spec].
  unfold aggregate. cbn [c_next]. now rewrite (rmapM_ok _ _ _ E).
Qed.
Lemma agg_prev {V W} u (d : W) t (funcs : list (crv xq V)) x ms lim xs : notnan x -> Forall nn_opt xs ->
  Forall2 (fun f r => c_prev f x ms lim = Ok r) funcs xs ->
  exists r, c_prev (aggregate u d t funcs) x ms lim = Ok r /\ greatest_of (fun z => lt_x z x) xs r.
Proof.
  intros Hx Hn E. exists (max_or_none x None xs). split; [|now apply max_or_none_spec].
  unfold aggregate. cbn [c_prev]. now rewrite (rmapM_ok _ _ _ E).
Qed.

(** ** min, max, first *)
Definition anything (_ : xq) : Prop := True.
Lemma min_vals_gen l : forall pre best, Forall nn_opt (pre ++ l) ->
  least_of anything pre best -> least_of anything (pre ++ l) (min_vals_loop best l).
Proof.
  induction l as [|v l IH]; intros pre best F B; [rewrite app_nil_r; exact B|].
  cbn [min_vals_loop].
  replace (pre ++ v :: l) with ((pre ++ [v]) ++ l) in * by (rewrite <- app_assoc; reflexivity).
  apply IH; auto. rewrite !Forall_app in F. destruct F as [[F1 F2] _]. inversion F2 as [|? ? Hv _]; subst.
  rewrite Forall_forall in F1.
  destruct best as [b|], v as [w|]; cbn [n_ltb XQ].
  - destruct B as [B1 [_ B3]]. destruct (xq_ltb w b) eqn:E.
    + split; [apply in_or_app; simpl; auto|]. split; [exact I|].
      intros u Iu _. apply in_app_or in Iu. destruct Iu as [Iu|[Iu|[]]].
      * apply (le_x_trans _ b); auto; try (now apply (F1 _ Iu)); try (now apply (F1 _ B1)); try (now apply Hv).
        -- apply lt_x_le; auto. now apply (F1 _ B1).
        -- now apply B3.
      * inversion Iu; subst. apply le_x_refl. now apply Hv.
    + split; [apply in_or_app; auto|]. split; [exact I|].
      intros u Iu _. apply in_app_or in Iu. destruct Iu as [Iu|[Iu|[]]]; [now apply B3|].
      inversion Iu; subst. apply lt_x_false; auto. now apply (F1 _ B1).
  - destruct B as [B1 [_ B3]]. split; [apply in_or_app; auto|]. split; [exact I|].
    intros u Iu _. apply in_app_or in Iu. destruct Iu as [Iu|[Iu|[]]]; [now apply B3|discriminate].
  - split; [apply in_or_app; simpl; auto|]. split; [exact I|].
    intros u Iu _. apply in_app_or in Iu. destruct Iu as [Iu|[Iu|[]]].
    + exfalso. now apply (B u).
    + inversion Iu; subst. apply le_x_refl. now apply Hv.
  - intros u Iu. apply in_app_or in Iu. destruct Iu as [Iu|[Iu|[]]]; [now apply B|discriminate].
Qed.
Lemma max_vals_gen l : forall pre best, Forall nn_opt (pre ++ l) ->
  greatest_of anything pre best -> greatest_of anything (pre ++ l) (max_vals_loop best l).
Proof.
  induction l as [|v l IH]; intros pre best F B; [rewrite app_nil_r; exact B|].
  cbn [max_vals_loop].
  replace (pre ++ v :: l) with ((pre ++ [v]) ++ l) in * by (rewrite <- app_assoc; reflexivity).
  apply IH; auto. rewrite !Forall_app in F. destruct F as [[F1 F2] _]. inversion F2 as [|? ? Hv _]; subst.
  rewrite Forall_forall in F1. unfold n_gtb.
  destruct best as [b|], v as [w|]; cbn [n_ltb XQ].
  - destruct B as [B1 [_ B3]]. destruct (xq_ltb b w) eqn:E.
    + split; [apply in_or_app; simpl; auto|]. split; [exact I|].
      intros u Iu _. apply in_app_or in Iu. destruct Iu as [Iu|[Iu|[]]].
      * apply (le_x_trans _ b); auto; try (now apply (F1 _ Iu)); try (now apply (F1 _ B1)); try (now apply Hv).
        -- now apply B3.
        -- apply lt_x_le; auto. now apply (F1 _ B1).
      * inversion Iu; subst. apply le_x_refl. now apply Hv.
    + split; [apply in_or_app; auto|]. split; [exact I|].
      intros u Iu _. apply in_app_or in Iu. destruct Iu as [Iu|[Iu|[]]]; [now apply B3|].
      inversion Iu; subst. apply lt_x_false; auto. now apply (F1 _ B1).
  - destruct B as [B1 [_ B3]]. split; [apply in_or_app; auto|]. split; [exact I|].
    intros u Iu _. apply in_app_or in Iu. destruct Iu as [Iu|[Iu|[]]]; [now apply B3|discriminate].
  - split; [apply in_or_app; simpl; auto|]. split; [exact I|].
    intros u Iu _. apply in_app_or in Iu. destruct Iu as [Iu|[Iu|[]]].
    + exfalso. now apply (B u).
    + inversion Iu; subst. apply le_x_refl. now apply Hv.
  - intros u Iu. apply in_app_or in Iu. destruct Iu as [Iu|[Iu|[]]]; [now apply B|discriminate].
Qed.
Lemma in_somes l (v : xq) : In v (somes l) <-> In (Some v) l.
Proof.
  induction l as [|[w|] l IH]; cbn [somes In]; [tauto| |].
  - rewrite IH. split; (intros [A|A]; [left; congruence|auto]).
  - rewrite IH. split; auto. intros [A|A]; [discriminate|auto].
Qed.
Lemma fold_min_spec l : forall v : xq, Forall notnan (v :: l) ->
  In (fold_left n_min l v) (v :: l) /\ forall u, In u (v :: l) -> le_x (fold_left n_min l v) u.
Proof.
  induction l as [|w l IH]; intros v F.
  - cbn [fold_left]. split; [simpl; auto|]. intros u [->|[]]. apply le_x_refl. now inversion F.
  - inversion F as [|? ? Hv F1]; subst. inversion F1 as [|? ? Hw F2]; subst. cbn [fold_left].
    unfold n_min at 2 4. cbn [n_ltb XQ]. destruct (xq_ltb w v) eqn:E.
    + destruct (IH w F1) as [A B]. split; [simpl in *; tauto|].
      intros u [->|I]; [|now apply B].
      apply (le_x_trans _ w); auto.
      * rewrite Forall_forall in F1. now apply F1.
      * apply B; simpl; auto.
      * now apply lt_x_le.
    + assert (F3 : Forall notnan (v :: l)) by (constructor; auto).
      destruct (IH v F3) as [A B]. split; [simpl in *; tauto|].
      intros u [->|[->|I]]; [apply B; simpl; auto| |apply B; simpl; auto].
      apply (le_x_trans _ v); auto.
      * rewrite Forall_forall in F3. now apply F3.
      * apply B; simpl; auto.
      * now apply lt_x_false.
Qed.
Lemma fold_max_spec l : forall v : xq, Forall notnan (v :: l) ->
  In (fold_left n_max l v) (v :: l) /\ forall u, In u (v :: l) -> le_x u (fold_left n_max l v).
Proof.
  induction l as [|w l IH]; intros v F.
  - cbn [fold_left]. split; [simpl; auto|]. intros u [->|[]]. apply le_x_refl. now inversion F.
  - inversion F as [|? ? Hv F1]; subst. inversion F1 as [|? ? Hw F2]; subst. cbn [fold_left].
    unfold n_max at 2 4. unfold n_gtb. cbn [n_ltb XQ]. destruct (xq_ltb v w) eqn:E.
    + destruct (IH w F1) as [A B]. split; [simpl in *; tauto|].
      intros u [->|I]; [|now apply B].
      apply (le_x_trans _ w); auto.
      * rewrite Forall_forall in F1. now apply F1.
      * now apply lt_x_le.
      * apply B; simpl; auto.
    + assert (F3 : Forall notnan (v :: l)) by (constructor; auto).
      destruct (IH v F3) as [A B]. split; [simpl in *; tauto|].
      intros u [->|[->|I]]; [apply B; simpl; auto| |apply B; simpl; auto].
      apply (le_x_trans _ v); auto.
      * rewrite Forall_forall in F3. now apply F3.
      * now apply lt_x_false.
      * apply B; simpl; auto.
Qed.
Lemma somes_nn l : Forall nn_opt l -> Forall notnan (somes l).
Proof.
  intros F. rewrite Forall_forall in *. intros v I. apply in_somes in I. now apply (F _ I).
Qed.
Lemma min_tfm ignore_empty x l : Forall nn_opt l ->
  exists r, (if ignore_empty : bool then min_vals_with_empty else min_vals) x l = Ok r /\ least_of anything l r.
Proof.
  intros F. destruct ignore_empty.
  - unfold min_vals_with_empty. destruct (somes l) as [|v vs] eqn:E.
    + exists None. split; auto. intros u I _. apply in_somes in I. rewrite E in I. destruct I.
    + eexists. split; [reflexivity|]. pose proof (somes_nn l F) as H. rewrite E in H.
      destruct (fold_min_spec vs v H) as [A B]. rewrite <- E in A.
      split; [now apply in_somes|]. split; [exact I|].
      intros u I' _. apply B. rewrite <- E. now apply in_somes.
  - eexists. split; [reflexivity|]. apply (min_vals_gen l [] None); auto. intros u [].
Qed.
Lemma max_tfm ignore_empty x l : Forall nn_opt l ->
  exists r, (if ignore_empty : bool then max_vals_with_empty else max_vals) x l = Ok r /\ greatest_of anything l r.
Proof.
  intros F. destruct ignore_empty.
  - unfold max_vals_with_empty. destruct (somes l) as [|v vs] eqn:E.
    + exists None. split; auto. intros u I _. apply in_somes in I. rewrite E in I. destruct I.
    + eexists. split; [reflexivity|]. pose proof (somes_nn l F) as H. rewrite E in H.
      destruct (fold_max_spec vs v H) as [A B]. rewrite <- E in A.
      split; [now apply in_somes|]. split; [exact I|].
      intros u I' _. apply B. rewrite <- E. now apply in_somes.
  - eexists. split; [reflexivity|]. apply (max_vals_gen l [] None); auto. intros u [].
Qed.

Lemma curve_min_spec ie funcs x vs : doms_ok funcs -> notnan x -> imem (agg_dom ie funcs) x ->
  evals funcs x vs -> Forall nn_opt vs ->
  exists r, c_y (curve_min ie funcs) x = Ok r /\ least_of anything vs r.
Proof.
  intros H Hx M E F. destruct (min_tfm ie x vs F) as [r [A B]]. exists r. split; auto.
  unfold curve_min. rewrite (agg_y_in ie None _ funcs x vs) by auto. exact A.
Qed.
Lemma curve_max_spec ie funcs x vs : doms_ok funcs -> notnan x -> imem (agg_dom ie funcs) x ->
  evals funcs x vs -> Forall nn_opt vs ->
  exists r, c_y (curve_max ie funcs) x = Ok r /\ greatest_of anything vs r.
Proof.
  intros H Hx M E F. destruct (max_tfm ie x vs F) as [r [A B]]. exists r. split; auto.
  unfold curve_max. rewrite (agg_y_in ie None _ funcs x vs) by auto. exact A.
Qed.

(** the first value that is not None *)
Lemma first_loop_spec (l : list (option xq)) :
  match first_loop l with
  | None => Forall (fun v => v = None) l
  | Some v => exists pre post, l = pre ++ Some v :: post /\ Forall (fun w => w = None) pre
  end.
Proof.
  induction l as [|[w|] l IH]; simpl; auto.
  - exists [], l. split; auto.
  - destruct (first_loop l) as [v|].
    + destruct IH as [pre [post [E F]]]. exists (None :: pre), post. subst. split; auto.
    + auto.
Qed.
Lemma curve_first_spec funcs x vs : doms_ok funcs -> notnan x -> imem (agg_dom true funcs) x ->
  evals funcs x vs ->
  exists r, c_y (curve_first funcs) x = Ok r /\
    match r with
    | None => Forall (fun v => v = None) vs
    | Some v => exists pre post, vs = pre ++ Some v :: post /\ Forall (fun w => w = None) pre
    end.
Proof.
  intros H Hx M E. exists (first_loop vs). split; [|apply first_loop_spec].
  unfold curve_first. now rewrite (agg_y_in true None _ funcs x vs) by auto.
Qed.

(** ** Commutativity and associativity *)
Lemma evals_perm funcs funcs' x vs : Permutation funcs funcs' -> evals funcs x vs ->
  exists vs', evals funcs' x vs' /\ Permutation vs (vs' : list (option xq)).
Proof.
  intros P. revert vs. unfold evals. induction P; intros vs E.
  - inversion E; subst. exists []. split; constructor.
  - inversion E; subst. destruct (IHP _ H3) as [vs' [A B]]. eexists. split; [constructor; eauto|]. now constructor.
  - inversion E as [|? ? ? ? E1 E2]; subst. inversion E2; subst.
    eexists. split; [constructor; eauto|]. apply perm_swap.
  - destruct (IHP1 _ E) as [v1 [A B]]. destruct (IHP2 _ A) as [v2 [C D]].
    exists v2. split; auto. now apply (Permutation_trans B).
Qed.
Lemma fold_right_perm (f : xq -> xq -> xq) z l l' :
  (forall a b, f a b = f b a) -> (forall a b c, f (f a b) c = f a (f b c)) ->
  Permutation l l' -> fold_right f z l = fold_right f z l'.
Proof.
  intros C A P. induction P; simpl; auto; [congruence | | congruence].
  rewrite <- !A. now rewrite (C y x).
Qed.
Lemma perm_somes (l l' : list (option xq)) : Permutation l l' -> Permutation (somes l) (somes l').
Proof.
  induction 1 as [|[a|] l l' P IH|[a|] [b|] l|]; simpl; auto using perm_nil, perm_skip, perm_swap.
  eapply Permutation_trans; eauto.
Qed.
Lemma perm_none (l l' : list (option xq)) : Permutation l l' -> has_none l = has_none l'.
Proof.
  intros P. apply eq_true_iff_eq. rewrite !has_none_iff. split; apply Permutation_in; auto.
  now apply Permutation_sym.
Qed.
Lemma add_f_perm t vs vs' : Permutation vs vs' -> add_f t vs = add_f (t : xq) vs'.
Proof.
  intros P. destruct (has_none vs) eqn:E.
  - pose proof (perm_none _ _ P) as F. unfold add_f. now rewrite <- F, E.
  - pose proof (perm_none _ _ P) as F. rewrite E in F. symmetry in F.
    rewrite (no_none _ E), (no_none _ F), !add_f_some. do 2 f_equal.
    apply fold_right_perm; auto using xq_add_comm, xq_add_assoc. now apply perm_somes.
Qed.
Lemma mult_f_perm t vs vs' : Permutation vs vs' -> mult_f t vs = mult_f (t : xq) vs'.
Proof.
  intros P. destruct (has_none vs) eqn:E.
  - pose proof (perm_none _ _ P) as F. rewrite E in F. symmetry in F. unfold mult_f.
    rewrite !mult_loop_none; auto; now apply has_none_iff.
  - pose proof (perm_none _ _ P) as F. rewrite E in F. symmetry in F.
    rewrite (no_none _ E), (no_none _ F), !mult_f_some. do 2 f_equal.
    apply fold_right_perm; auto using xq_mul_comm, xq_mul_assoc. now apply perm_somes.
Qed.
Lemma agg_perm {W} u (d : W) t t' (funcs funcs' : list xcrv) x vs : Permutation funcs funcs' ->
  doms_ok funcs -> notnan x -> evals funcs x vs -> u = false ->
  (forall l l', Permutation l l' -> t x l = t' x l') ->
  c_y (aggregate u d t funcs) x = c_y (aggregate u d t' funcs') x.
Proof.
  intros P H Hx E U T. subst u. destruct funcs as [|f0 fs].
  { apply Permutation_nil in P. subst. inversion E; subst.
    rewrite !agg_y_out; auto; intros M; apply (proj1 (is_empty_iff i_empty iok_empty) i_empty_is_empty x Hx M). }
  assert (N : f0 :: fs <> []) by discriminate. set (funcs := f0 :: fs) in *. clearbody funcs.
  assert (N' : funcs' <> []).
  { intro Z. subst. apply Permutation_sym, Permutation_nil in P. contradiction. }
  assert (H' : doms_ok funcs').
  { unfold doms_ok in *. rewrite Forall_forall in *. intros f I. apply H.
    apply (Permutation_in f (Permutation_sym P) I). }
  destruct (evals_perm _ _ _ _ P E) as [vs' [E' Pv]].
  assert (Q : imem (agg_dom false funcs) x <-> imem (agg_dom false funcs') x).
  { rewrite !agg_inter_iff by auto. unfold all_in. rewrite !Forall_forall.
    split; intros A f I; apply A.
    - exact (Permutation_in f (Permutation_sym P) I).
    - exact (Permutation_in f P I). }
  destruct (i_contains (agg_dom false funcs) x) eqn:C.
  - apply contains_iff in C; auto using agg_dom_ok.
    rewrite (agg_y_in false d t funcs x vs), (agg_y_in false d t' funcs' x vs') by (auto; now apply Q).
    now apply T.
  - assert (C' : ~ imem (agg_dom false funcs) x).
    { intro M. apply (proj2 (contains_iff _ x (agg_dom_ok false funcs H) Hx)) in M. congruence. }
    rewrite (agg_y_out false d t funcs x), (agg_y_out false d t' funcs' x); auto. now rewrite <- Q.
Qed.

(** Two operands *)
Lemma contains_inter2 (d e : ival xq) x : iok d -> iok e -> notnan x ->
  i_contains (i_inter2 d e) x = i_contains d x && i_contains e x.
Proof.
  intros Hd He Hx. apply eq_true_iff_eq.
  rewrite andb_true_iff, !contains_iff by auto using iok_inter2. now apply inter2_iff.
Qed.
Definition both (op : xq -> xq -> xq) (a b : option xq) : option xq :=
  match a, b with Some a, Some b => Some (op a b) | _, _ => None end.
Lemma agg2_y (t : xq -> list (option xq) -> res (option xq)) f g x :
  iok (c_dom f) -> iok (c_dom g) -> notnan x ->
  c_y (aggregate false None t [f; g]) x =
    if i_contains (c_dom f) x && i_contains (c_dom g) x then
      let! a := c_y f x in let! b := c_y g x in t x [a; b]
    else Ok None.
Proof.
  intros Hf Hg Hx. unfold aggregate. cbn [c_y]. unfold agg_dom. cbn [map i_inter fold_left].
  rewrite contains_inter2 by auto. destruct (_ && _); cbn [negb]; auto.
  cbn [rmapM]. destruct (c_y f x); cbn [rbind]; auto. destruct (c_y g x); cbn [rbind]; auto.
Qed.
Lemma agg2_dom {W} (d : W) (t : xq -> list (option xq) -> res W) f g :
  c_dom (aggregate false d t [f; g]) = i_inter2 (c_dom f) (c_dom g).
Proof. reflexivity. Qed.
Lemma add_f_two t (a b : option xq) : add_f t [a; b] = Ok (both xq_add a b).
Proof.
  destruct a as [a|], b as [b|]; cbn [both]; try reflexivity.
  change [Some a; Some b] with (map Some [a; b]). rewrite add_f_some. cbn [fold_right].
  rewrite (xq_add_comm b), xq_add_0. reflexivity.
Qed.
Lemma mult_f_two t (a b : option xq) : mult_f t [a; b] = Ok (both xq_mul a b).
Proof.
  destruct a as [a|], b as [b|]; cbn [both]; try reflexivity.
  change [Some a; Some b] with (map Some [a; b]). rewrite mult_f_some. cbn [fold_right].
  rewrite (xq_mul_comm b), xq_mul_1. reflexivity.
Qed.
Lemma sub_f_two t (a b : option xq) : sub_f t [a; b] = Ok (both xq_sub a b).
Proof. destruct a as [a|], b as [b|]; reflexivity. Qed.

Lemma assoc2 (op : xq -> xq -> xq) (t : xq -> list (option xq) -> res (option xq)) f g h x :
  (forall a b, t x [a; b] = Ok (both op a b)) -> (forall a b c, op (op a b) c = op a (op b c)) ->
  iok (c_dom f) -> iok (c_dom g) -> iok (c_dom h) -> notnan x ->
  (forall k, In k [f; g; h] -> exists v, c_y k x = Ok v) ->
  c_y (aggregate false None t [aggregate false None t [f; g]; h]) x =
  c_y (aggregate false None t [f; aggregate false None t [g; h]]) x.
Proof.
  intros T A Hf Hg Hh Hx K.
  destruct (K f) as [a Ea]; [simpl; auto|]. destruct (K g) as [b Eb]; [simpl; auto|].
  destruct (K h) as [c Ec]; [simpl; auto|].
  rewrite !agg2_y by (rewrite ?agg2_dom; auto using iok_inter2).
  rewrite !agg2_dom, !contains_inter2 by auto.
  rewrite Ea, Eb, Ec. cbn [rbind]. rewrite !T.
  destruct (i_contains (c_dom f) x), (i_contains (c_dom g) x), (i_contains (c_dom h) x); cbn [andb rbind]; auto.
  rewrite !T. destruct a, b, c; cbn [both]; auto. now rewrite A.
Qed.
