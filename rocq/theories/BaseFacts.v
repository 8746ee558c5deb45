(** Facts about the base-class algorithms (Curve.v) over exact numbers. *)
From Coq Require Import List ZArith QArith Qcanon Bool Lia Lqa Sorting.Sorted.
From Verif Require Import Base Num NumFacts Interval IntervalFacts Curve.
Import ListNotations.

(** ** Rounding *)
Definition half : Qc := Q2Qc (1 # 2).
Lemma half_Q : (this half == 1 # 2)%Q. Proof. apply this_Q2Qc. Qed.
Lemma Qcround_spec q : (QcofZ (Qcround q) - half <= q)%Qc /\ (q <= QcofZ (Qcround q) + half)%Qc.
Proof.
  unfold Qcround. fold half. pose proof half_Q as HQ. destruct (Qcfloor_spec q) as [F1 F2]. rewrite QcofZ_add, QcofZ_1 in F2.
  repeat qb_case; try (destruct (Z.even (Qcfloor q))); rewrite ?QcofZ_add, ?QcofZ_1; split; qc_lra.
Qed.
Lemma Qcround_mono a b : (a <= b)%Qc -> (Qcround a <= Qcround b)%Z.
Proof.
  intros H. destruct (Z.le_gt_cases (Qcround a) (Qcround b)) as [L|L]; auto. exfalso.
  destruct (Qcround_spec a) as [A1 A2], (Qcround_spec b) as [B1 B2]. pose proof half_Q as HQ.
  assert (L' : (Qcround b + 1 <= Qcround a)%Z) by lia. apply QcofZ_le in L'. rewrite QcofZ_add, QcofZ_1 in L'.
  assert (E : a = b) by (apply Qcle_antisym; auto; qc_lra). subst. lia.
Qed.
(** no tie: [q] is not half way between two integers *)
Definition no_tie (q : Qc) : Prop := forall z, q <> (QcofZ z + half)%Qc.
Lemma Qcround_strict q : no_tie q -> (QcofZ (Qcround q) - half < q)%Qc /\ (q < QcofZ (Qcround q) + half)%Qc.
Proof.
  intros N. destruct (Qcround_spec q) as [A B]. pose proof half_Q as HQ. split.
  - apply Qcle_lt_or_eq in A. destruct A as [A|A]; auto. exfalso. apply (N (Qcround q - 1)%Z). rewrite QcofZ_sub, QcofZ_1.
    transitivity (QcofZ (Qcround q) - half)%Qc; [symmetry; exact A|]. apply Qc_eq_iff. clear A B N. qc_toQ. lra.
  - apply Qcle_lt_or_eq in B. destruct B as [B|B]; auto. exfalso. apply (N (Qcround q)). auto.
Qed.
Lemma Qcround_unique q z : (QcofZ z - half < q)%Qc -> (q < QcofZ z + half)%Qc -> Qcround q = z.
Proof.
  intros A B. destruct (Qcround_spec q) as [C D]. pose proof half_Q as HQ.
  destruct (Z.lt_trichotomy (Qcround q) z) as [L|[L|L]]; auto; exfalso;
    [assert (L' : (Qcround q + 1 <= z)%Z) by lia|assert (L' : (z + 1 <= Qcround q)%Z) by lia];
    apply QcofZ_le in L'; rewrite QcofZ_add, QcofZ_1 in L'; qc_lra.
Qed.
Lemma no_tie_add q z : no_tie q -> no_tie (q + QcofZ z)%Qc.
Proof. intros N y E. apply (N (y - z)%Z). rewrite QcofZ_sub. apply (f_equal (fun u => (u - QcofZ z)%Qc)) in E. transitivity (q + QcofZ z - QcofZ z)%Qc; [ring|]. rewrite E. ring. Qed.
Lemma Qcround_add q z : no_tie q -> Qcround (q + QcofZ z)%Qc = (Qcround q + z)%Z.
Proof.
  intros N. destruct (Qcround_strict q N) as [A B]. apply Qcround_unique; rewrite QcofZ_add; qc_lra.
Qed.

(** ** C18 *)
Lemma resolve_spec (a b : option xq) :
  match resolve_min_step a b with
  | None => a = None /\ b = None
  | Some m => (a = Some m \/ b = Some m) /\
              (forall x, a = Some x \/ b = Some x -> notnan x -> notnan m -> le_x x m)
  end.
Proof.
  destruct a as [a|], b as [b|]; simpl; auto.
  - unfold n_max, n_gtb. cbn [n_ltb XQ]. destruct (xq_ltb b a) eqn:E.
    + split; auto. intros x [H|H] Nx Nm; injection H as <-.
      * unfold le_x. rewrite xq_leb_ltb by auto. destruct (xq_ltb_spec a a Nx Nx); auto. lra.
      * unfold le_x. rewrite xq_leb_ltb by auto. destruct (xq_ltb_spec a b Nm Nx); auto.
        destruct (xq_ltb_spec b a Nx Nm); [lra|discriminate].
    + split; auto. intros x [H|H] Nx Nm; injection H as <-.
      * unfold le_x. rewrite xq_leb_ltb by auto. now rewrite E.
      * unfold le_x. rewrite xq_leb_ltb by auto. destruct (xq_ltb_spec b b Nx Nx); auto. lra.
  - split; auto. intros x [H|H]; [|discriminate]. injection H as <-. intros Nx _. unfold le_x. rewrite xq_leb_ltb by auto.
    destruct (xq_ltb_spec a a Nx Nx); auto. lra.
  - split; auto. intros x [H|H]; [discriminate|]. injection H as <-. intros Nx _. unfold le_x. rewrite xq_leb_ltb by auto.
    destruct (xq_ltb_spec b b Nx Nx); auto. lra.
Qed.
Lemma resolve_idem (a b : option xq) : resolve_min_step a (resolve_min_step a b) = resolve_min_step a b.
Proof.
  destruct a as [a|], b as [b|]; simpl; auto.
  - unfold n_max, n_gtb. cbn [n_ltb XQ]. destruct (xq_ltb b a) eqn:E; [|now rewrite E].
    destruct (xq_ltb a a); reflexivity.
  - unfold n_max, n_gtb. cbn [n_ltb XQ]. destruct (xq_ltb a a); reflexivity.
Qed.

(** ** C19 *)
(** the point one step away, cut off at the limit *)
Definition one_step (dom : ival xq) (x s : xq) (limit : option xq) (t : xq) : Prop :=
  exists u, (if n_isinf s then u = i_end dom else u = xq_add x s) /\
  match limit with
  | None => t = u
  | Some l => (lt_x l u /\ t = l) \/ (~ lt_x l u /\ t = u)
  end.
Definition one_back (dom : ival xq) (x s : xq) (limit : option xq) (t : xq) : Prop :=
  exists u, (if n_isinf s then u = i_start dom else u = xq_sub x s) /\
  match limit with
  | None => t = u
  | Some l => (lt_x u l /\ t = l) \/ (~ lt_x u l /\ t = u)
  end.
Definition before_end (dom : ival xq) (t : xq) : Prop :=
  (exists z, notnan z /\ imem dom z) /\ if i_eo dom then lt_x t (i_end dom) else le_x t (i_end dom).
Definition after_start (dom : ival xq) (t : xq) : Prop :=
  (exists z, notnan z /\ imem dom z) /\ if i_so dom then lt_x (i_start dom) t else le_x (i_start dom) t.

Lemma nonempty_ex (d : ival xq) : iok d -> i_is_empty d = false <-> exists z, notnan z /\ imem d z.
Proof.
  intros H. split.
  - intros E. apply is_empty_e_false in E; auto. destruct (nonempty_emem d H E) as [z [Hz Iz]]. exists z. split; auto. now apply imem_emem.
  - intros [z [Hz Iz]]. destruct (i_is_empty d) eqn:E; auto. exfalso. rewrite is_empty_iff in E by auto. now apply (E z).
Qed.
Lemma contains_end_iff (d : ival xq) t : iok d -> notnan t -> i_contains_gen false true d t = true <-> before_end d t.
Proof.
  intros H Ht. unfold i_contains_gen, before_end. simpl. rewrite andb_true_r, andb_true_iff, negb_true_iff, <- (nonempty_ex d H).
  destruct H as [H1 H2]. unfold below_end, lt_x, le_x. iunf. destruct (i_eo d); simpl.
  - rewrite orb_false_r. tauto.
  - rewrite orb_true_iff. rewrite xq_leb_emb, xq_ltb_emb, xq_eqb_emb by auto. intuition lra.
Qed.
Lemma contains_start_iff (d : ival xq) t : iok d -> notnan t -> i_contains_gen true false d t = true <-> after_start d t.
Proof.
  intros H Ht. unfold i_contains_gen, after_start. simpl. rewrite andb_true_r, andb_true_iff, negb_true_iff, <- (nonempty_ex d H).
  destruct H as [H1 H2]. unfold above_start, lt_x, le_x. iunf. destruct (i_so d); simpl.
  - rewrite orb_false_r. tauto.
  - rewrite orb_true_iff. rewrite xq_leb_emb, xq_ltb_emb, xq_eqb_emb by auto. intuition lra.
Qed.

Lemma base_next_spec (dom : ival xq) sms x ms lim s : iok dom -> resolve_min_step sms ms = Some s ->
  exists t, one_step dom x s lim t /\
    (notnan t -> (before_end dom t -> base_x_next dom sms x ms lim = Ok (Some t)) /\
                 (~ before_end dom t -> base_x_next dom sms x ms lim = Ok None)).
Proof.
  intros H R. unfold base_x_next. rewrite R.
  set (u := if n_isinf s then i_end dom else n_add x s).
  exists (clip_up lim u). split.
  - exists u. split; [unfold u; destruct (n_isinf s); reflexivity|].
    unfold clip_up. destruct lim as [l|]; auto. unfold n_gtb. cbn [n_ltb XQ]. unfold lt_x.
    destruct (xq_ltb l u); [left|right]; auto.
  - intros Nt. pose proof (contains_end_iff dom (clip_up lim u) H Nt) as C.
    destruct (i_contains_gen false true dom (clip_up lim u)); split; auto; intros B.
    + exfalso. tauto.
    + apply C in B. discriminate.
Qed.
Lemma base_prev_spec (dom : ival xq) sms x ms lim s : iok dom -> resolve_min_step sms ms = Some s ->
  exists t, one_back dom x s lim t /\
    (notnan t -> (after_start dom t -> base_x_previous dom sms x ms lim = Ok (Some t)) /\
                 (~ after_start dom t -> base_x_previous dom sms x ms lim = Ok None)).
Proof.
  intros H R. unfold base_x_previous. rewrite R.
  set (u := if n_isinf s then i_start dom else n_sub x s).
  exists (clip_down lim u). split.
  - exists u. split; [unfold u; destruct (n_isinf s); reflexivity|].
    unfold clip_down. destruct lim as [l|]; auto. cbn [n_ltb XQ]. unfold lt_x.
    destruct (xq_ltb u l); [left|right]; auto.
  - intros Nt. pose proof (contains_start_iff dom (clip_down lim u) H Nt) as C.
    destruct (i_contains_gen true false dom (clip_down lim u)); split; auto; intros B.
    + exfalso. tauto.
    + apply C in B. discriminate.
Qed.
Lemma base_no_step (dom : ival xq) x lim : base_x_next dom None x None lim = Err EType /\ base_x_previous dom None x None lim = Err EType.
Proof. split; reflexivity. Qed.

(** ** C20 *)
Section Sample.
Context {V : Type}.
Implicit Type c : crv xq V.

(** The stepping function moves forward. *)
Definition advances c (m : xq) (e : Qc) : Prop :=
  forall x x1, (x < e)%Qc -> c_next c (Fin x) (Some m) (Some (Fin e)) = Ok (Some x1) -> lt_x (Fin x) x1.

Fixpoint chain c (lo e : Qc) (l : list (xq * V)) : Prop :=
  match l with
  | [] => True
  | (x, y) :: r => exists q, x = Fin q /\ (lo < q)%Qc /\ (q <= e)%Qc /\ c_y c x = Ok y /\ chain c q e r
  end.

Lemma lt_x_fin_inv lo x e : lt_x (Fin lo) x -> xq_leb x (Fin e) = true -> exists q, x = Fin q /\ (lo < q)%Qc /\ (q <= e)%Qc.
Proof.
  intros H L. destruct x as [q| | |]; try discriminate. exists q. split; auto. split; [now apply Qcltb_true|now apply Qcleb_true].
Qed.

Lemma ms_loop_chain c m e be : advances c m e ->
  (let! q := n_div (Fin e) m in n_round q) = Ok be ->
  forall fuel x lo l, (forall xv, x = Some xv -> lt_x (Fin lo) xv) ->
  sp_ms_loop fuel c (Fin e) m be x = Ok l -> chain c lo e l.
Proof.
  intros A BE. induction fuel as [|f IH]; intros x lo l Hx E; cbn [sp_ms_loop] in E; [discriminate|].
  destruct x as [xv|]; [|injection E as <-; exact I].
  cbn [n_leb XQ] in E. destruct (xq_leb xv (Fin e)) eqn:Le; cbn [negb] in E; [|injection E as <-; exact I].
  destruct (lt_x_fin_inv _ _ _ (Hx xv eq_refl) Le) as [q [-> [L1 L2]]].
  destruct (c_y c (Fin q)) as [y|] eqn:Ey; [|discriminate]. cbn [rbind] in E.
  destruct (n_div (Fin q) m) as [qm|] eqn:Eq; [|discriminate]. cbn [rbind] in E.
  destruct (n_round qm) as [xb|] eqn:Er; [|discriminate]. cbn [rbind] in E.
  destruct (xb =? be)%Z eqn:Eb.
  - injection E as <-. exists q. repeat split; auto.
  - destruct (c_next c (Fin q) (Some m) (Some (Fin e))) as [x1|] eqn:En; [|discriminate]. cbn [rbind] in E.
    destruct (match x1 with Some x1v => _ | None => Ok tt end) as [[]|]; [|discriminate]. cbn [rbind] in E.
    destruct (sp_ms_loop f c (Fin e) m be x1) as [r|] eqn:El; [|discriminate]. cbn [rbind] in E. injection E as <-.
    exists q. repeat split; auto. apply (IH x1); auto. intros xv ->. apply (A q); auto.
    apply Qcle_lt_or_eq in L2. destruct L2 as [L2|L2]; auto. exfalso. subst q. rewrite Eq in BE. cbn [rbind] in BE.
    rewrite Er in BE. injection BE as ->. rewrite Z.eqb_refl in Eb. discriminate.
Qed.

Lemma step_loop_chain c e h : (0 < h)%Qc -> forall fuel x lo l, (lo < x)%Qc ->
  sp_step_loop fuel c (Fin e) (Fin h) (Fin x) = Ok l -> chain c lo e l.
Proof.
  intros Hh. induction fuel as [|f IH]; intros x lo l Hx E; cbn [sp_step_loop] in E; [discriminate|].
  cbn [n_leb n_add XQ xq_leb xq_add] in E. destruct (Qcleb x e) eqn:Le; [|injection E as <-; exact I].
  destruct (c_y c (Fin x)) as [y|] eqn:Ey; [|discriminate]. cbn [rbind] in E.
  destruct (sp_step_loop f c (Fin e) (Fin h) (Fin (x + h))) as [r|] eqn:El; [|discriminate]. cbn [rbind] in E. injection E as <-.
  apply Qcleb_true in Le. exists x. repeat split; auto. apply (IH (x + h)%Qc); auto. qc_lra.
Qed.

Lemma chain_app_end c lo e l y : chain c lo e l -> (lo < e)%Qc -> c_y c (Fin e) = Ok y ->
  (forall xl yl, last_opt l = Some (xl, yl) -> xl <> Fin e) -> chain c lo e (l ++ [(Fin e, y)]).
Proof.
  revert lo. induction l as [|[x v] l IH]; intros lo H L Y Q.
  - simpl. exists e. repeat split; auto. apply Qcle_refl.
  - destruct H as [q [-> [H1 [H2 [H3 H4]]]]]. cbn. exists q. repeat split; auto. apply IH; auto.
    + apply Qcle_lt_or_eq in H2. destruct H2 as [H2|H2]; auto. exfalso. subst q. destruct l as [|[x2 v2] l].
      * apply (Q (Fin e) v); auto.
      * destruct H4 as [q2 [-> [K1 [K2 _]]]]. qc_lra.
    + intros xl yl El. apply (Q xl yl). unfold last_opt in *. simpl. destruct (rev l) as [|z zs] eqn:E; [discriminate|]. simpl. exact El.
Qed.

Lemma chain_sorted c lo e l : chain c lo e l ->
  StronglySorted (fun a b => lt_x (fst a) (fst b)) l /\
  Forall (fun p => exists q, fst p = Fin q /\ (lo < q)%Qc /\ (q <= e)%Qc /\ c_y c (fst p) = Ok (snd p)) l.
Proof.
  revert lo. induction l as [|[x v] l IH]; intros lo H; [split; constructor|].
  destruct H as [q [-> [H1 [H2 [H3 H4]]]]]. destruct (IH q H4) as [S F]. split.
  - constructor; auto. apply Forall_forall. intros p I. destruct (proj1 (Forall_forall _ _) F p I) as [r [E [L _]]].
    cbn [fst]. rewrite E. now apply Qcltb_true.
  - constructor.
    + exists q. auto.
    + apply Forall_forall. intros p I. destruct (proj1 (Forall_forall _ _) F p I) as [r [E [L [M N]]]].
      exists r. repeat split; auto. qc_lra.
Qed.

(** the requested part of the domain *)
Definition sampled_domain c (domain : option (ival xq)) : ival xq :=
  match domain with None => c_dom c | Some d => i_inter2 (c_dom c) d end.

(** everything sample_points returns, for any curve whose stepping advances *)
Lemma sample_sound fuel c domain ms step a b pts :
  i_is_empty (sampled_domain c domain) = false ->
  i_start (sampled_domain c domain) = Fin a -> i_end (sampled_domain c domain) = Fin b -> (a < b)%Qc ->
  (forall h, step = Some h -> exists q, h = Fin q /\ (0 < q)%Qc) ->
  (step = None -> forall m, resolve_min_step (c_ms c) ms = Some m -> advances c m b) ->
  sample_points fuel c domain ms step = Ok pts ->
  StronglySorted (fun p q => lt_x (fst p) (fst q)) pts /\
  Forall (fun p => c_y c (fst p) = Ok (snd p) /\ exists q, fst p = Fin q /\ (q <= b)%Qc /\
      if i_so (sampled_domain c domain) then (a < q)%Qc else (a <= q)%Qc) pts /\
  (i_so (sampled_domain c domain) = false -> exists y, head_opt pts = Some (Fin a, y)) /\
  (step = None -> i_eo (sampled_domain c domain) = false -> exists y, last_opt pts = Some (Fin b, y)).
Proof.
  intros NE ES EN AB HH AD E. unfold sample_points in E. fold (sampled_domain c domain) in E.
  set (D := sampled_domain c domain) in *. cbv zeta in E. rewrite NE in E.
  assert (FD : i_is_finite D = true) by (unfold i_is_finite; rewrite ES, EN; reflexivity).
  rewrite FD in E. cbn [negb] in E. rewrite ES, EN in E.
  destruct (match resolve_min_step (c_ms c) ms with Some m => _ | None => Ok 0%Z end) as [be|] eqn:BE; [|discriminate]. cbn [rbind] in E.
  destruct (if i_so D then Ok [] else let! y := c_y c (Fin a) in Ok [(Fin a, y)]) as [p0|] eqn:P0; [|discriminate]. cbn [rbind] in E.
  (* the common conclusion from a chain above a *)
  assert (K : forall r, chain c a b r ->
    StronglySorted (fun p q => lt_x (fst p) (fst q)) (p0 ++ r) /\
    Forall (fun p => c_y c (fst p) = Ok (snd p) /\ exists q, fst p = Fin q /\ (q <= b)%Qc /\ if i_so D then (a < q)%Qc else (a <= q)%Qc) (p0 ++ r) /\
    (i_so D = false -> exists y, head_opt (p0 ++ r) = Some (Fin a, y))).
  { intros r C. destruct (chain_sorted _ _ _ _ C) as [S F].
    assert (F' : Forall (fun p => c_y c (fst p) = Ok (snd p) /\ exists q, fst p = Fin q /\ (q <= b)%Qc /\ if i_so D then (a < q)%Qc else (a <= q)%Qc) r).
    { apply Forall_forall. intros p I. destruct (proj1 (Forall_forall _ _) F p I) as [q [Q1 [Q2 [Q3 Q4]]]].
      split; auto. exists q. repeat split; auto. destruct (i_so D); auto. qc_lra. }
    destruct (i_so D) eqn:So.
    - injection P0 as <-. cbn [app]. repeat split; auto. discriminate.
    - destruct (c_y c (Fin a)) as [ya|] eqn:Ya; [|discriminate]. cbn in P0. injection P0 as <-. cbn [app]. repeat split.
      + constructor; auto. apply Forall_forall. intros p I. destruct (proj1 (Forall_forall _ _) F p I) as [q [Q1 [Q2 _]]].
        cbn [fst]. rewrite Q1. now apply Qcltb_true.
      + constructor; auto. split; auto. exists a. repeat split; auto; [qc_lra|apply Qcle_refl].
      + intros _. exists ya. reflexivity. }
  destruct step as [h|].
  - destruct (HH h eq_refl) as [q [-> Hq]].
    destruct (sp_step_loop fuel c (Fin b) (Fin q) (n_add (Fin a) (Fin q))) as [r|] eqn:El; [|discriminate]. cbn [rbind] in E. injection E as <-.
    assert (C : chain c a b r). { apply (step_loop_chain c b q Hq fuel (a + q)%Qc a r); auto. qc_lra. }
    destruct (K r C) as [K1 [K2 K3]]. repeat split; auto. discriminate.
  - specialize (AD eq_refl). destruct (resolve_min_step (c_ms c) ms) as [m|]; [|discriminate]. specialize (AD m eq_refl).
    destruct (n_gtb m n_zero); [|discriminate].
    destruct (c_next c (Fin a) (Some m) (Some (Fin b))) as [x|] eqn:Ex; [|discriminate]. cbn [rbind] in E.
    destruct (sp_ms_loop fuel c (Fin b) m be x) as [r|] eqn:El; [|discriminate]. cbn [rbind] in E.
    assert (C : chain c a b r).
    { apply (ms_loop_chain c m b be AD BE fuel x a r); auto. intros xv ->. now apply (AD a). }
    destruct (i_eo D) eqn:Eo.
    + injection E as <-. destruct (K r C) as [K1 [K2 K3]]. repeat split; auto. discriminate.
    + destruct (last_opt (p0 ++ r)) as [[xl yl]|] eqn:La; [|discriminate]. cbn [n_eqb XQ] in E.
      destruct (xq_eqb xl (Fin b)) eqn:Q; cbn [negb] in E.
      * injection E as <-. destruct (K r C) as [K1 [K2 K3]]. repeat split; auto. intros _ _. apply xq_eqb_true in Q. destruct Q as [-> _]. eauto.
      * destruct (c_y c (Fin b)) as [yb|] eqn:Yb; [|discriminate]. cbn [rbind] in E. injection E as <-.
        assert (C' : chain c a b (r ++ [(Fin b, yb)])).
        { apply chain_app_end; auto. intros x' y' L. intros ->.
          assert (X : last_opt (p0 ++ r) = Some (Fin b, y')).
          { unfold last_opt in *. rewrite rev_app_distr. destruct (rev r); [discriminate|]. exact L. }
          rewrite X in La. injection La as <- _. rewrite xq_eqb_refl in Q; discriminate. }
        rewrite <- app_assoc. destruct (K _ C') as [K1 [K2 K3]]. repeat split; auto. intros _ _. exists yb.
        unfold last_opt. rewrite !rev_app_distr. reflexivity.
Qed.

Lemma sample_empty fuel c domain ms step : i_is_empty (sampled_domain c domain) = true -> sample_points fuel c domain ms step = Ok [].
Proof. intros H. unfold sample_points. fold (sampled_domain c domain). now rewrite H. Qed.
Lemma sample_infinite fuel c domain ms step : i_is_empty (sampled_domain c domain) = false ->
  i_is_finite (sampled_domain c domain) = false -> sample_points fuel c domain ms step = Err EExc.
Proof. intros H H2. unfold sample_points. fold (sampled_domain c domain). now rewrite H, H2. Qed.

(** *** exact contents *)
Definition grid (f : Qc -> V) (a h : Qc) (k n : nat) : list (xq * V) :=
  map (fun i => (Fin (a + QcofZ (Z.of_nat i) * h)%Qc, f (a + QcofZ (Z.of_nat i) * h)%Qc)) (seq k n).

Lemma grid_cons f a h k n : grid f a h k (S n) = (Fin (a + QcofZ (Z.of_nat k) * h)%Qc, f (a + QcofZ (Z.of_nat k) * h)%Qc) :: grid f a h (S k) n.
Proof. reflexivity. Qed.
Lemma grid_next a h k : (a + QcofZ (Z.of_nat k) * h + h)%Qc = (a + QcofZ (Z.of_nat (S k)) * h)%Qc.
Proof. rewrite Nat2Z.inj_succ. unfold Z.succ. rewrite QcofZ_add, QcofZ_1. ring. Qed.

Lemma step_loop_grid c f a b h : (0 < h)%Qc ->
  (forall q, (a <= q)%Qc -> (q <= b)%Qc -> c_y c (Fin q) = Ok (f q)) ->
  forall n k fuel, (n < fuel)%nat ->
  (n = 0%nat \/ (a + QcofZ (Z.of_nat (k + n - 1)) * h <= b)%Qc) -> (b < a + QcofZ (Z.of_nat (k + n)) * h)%Qc ->
  sp_step_loop fuel c (Fin b) (Fin h) (Fin (a + QcofZ (Z.of_nat k) * h)%Qc) = Ok (grid f a h k n).
Proof.
  intros Hh Y. induction n as [|n IH]; intros k fuel F L U; (destruct fuel as [|fu]; [lia|]); cbn [sp_step_loop].
  - cbn [n_leb XQ xq_leb]. rewrite Nat.add_0_r in U. destruct (Qcleb _ b) eqn:E; [|reflexivity]. apply Qcleb_true in E. qc_lra.
  - destruct L as [L|L]; [discriminate|]. cbn [n_leb n_add XQ xq_leb xq_add].
    assert (P : (0 <= QcofZ (Z.of_nat k))%Qc) by (rewrite <- QcofZ_0; apply QcofZ_le; lia).
    assert (P2 : (QcofZ (Z.of_nat k) <= QcofZ (Z.of_nat (k + S n - 1)))%Qc) by (apply QcofZ_le; lia).
    assert (Lk : (a + QcofZ (Z.of_nat k) * h <= b)%Qc) by qc_nra.
    destruct (Qcleb _ b) eqn:E; [|apply Qcleb_false in E; qc_lra].
    rewrite Y by (auto; qc_nra). cbn [rbind]. rewrite grid_next, (IH (S k)); [reflexivity|lia| |].
    + destruct n; [left; reflexivity|right]. replace (S k + S n - 1)%nat with (k + S (S n) - 1)%nat by lia. exact L.
    + replace (S k + n)%nat with (k + S n)%nat by lia. exact U.
Qed.

Lemma floor_steps a b h : (a <= b)%Qc -> (0 < h)%Qc ->
  let n := Z.to_nat (Qcfloor ((b - a) / h)) in
  (a + QcofZ (Z.of_nat n) * h <= b)%Qc /\ (b < a + QcofZ (Z.of_nat (S n)) * h)%Qc.
Proof.
  intros L Hh n. destruct (Qcfloor_spec ((b - a) / h)%Qc) as [F1 F2].
  assert (H0 : h <> 0%Qc) by (intros ->; qc_lra).
  assert (E : ((b - a) / h * h)%Qc = (b - a)%Qc) by (field; auto).
  unfold n. clear n. revert E F1 F2. generalize ((b - a) / h)%Qc. intros u E F1 F2. rewrite QcofZ_add, QcofZ_1 in F2.
  assert (Z0 : (0 <= Qcfloor u)%Z).
  { assert (P : (0 <= u)%Qc). { destruct (Qclt_le_dec u 0) as [X|X]; auto. exfalso.
      assert (Y : (u * h < 0)%Qc) by qc_nra. rewrite E in Y. qc_lra. }
    assert (X : (QcofZ (-1) < QcofZ (Qcfloor u))%Qc).
    { change (QcofZ (-1)) with (QcofZ (0 - 1)). rewrite QcofZ_sub, QcofZ_0, QcofZ_1. qc_lra. }
    apply (proj1 (QcofZ_lt _ _)) in X. lia. }
  rewrite Nat2Z.inj_succ, Z2Nat.id by auto. unfold Z.succ. rewrite QcofZ_add, QcofZ_1.
  split; qc_nra.
Qed.

Lemma sample_step_exact c domain ms f a b h fuel :
  i_is_empty (sampled_domain c domain) = false ->
  i_start (sampled_domain c domain) = Fin a -> i_end (sampled_domain c domain) = Fin b -> (a <= b)%Qc -> (0 < h)%Qc ->
  (forall m, resolve_min_step (c_ms c) ms = Some m -> exists q, m = Fin q /\ (0 < q)%Qc) ->
  (forall q, (a <= q)%Qc -> (q <= b)%Qc -> c_y c (Fin q) = Ok (f q)) ->
  let n := Z.to_nat (Qcfloor ((b - a) / h)) in
  (n < fuel)%nat ->
  sample_points fuel c domain ms (Some (Fin h)) =
    Ok ((if i_so (sampled_domain c domain) then [] else [(Fin a, f a)]) ++ grid f a h 1 n).
Proof.
  intros NE ES EN AB Hh M Y n F. unfold sample_points. fold (sampled_domain c domain). cbv zeta. rewrite NE.
  assert (FD : i_is_finite (sampled_domain c domain) = true) by (unfold i_is_finite; rewrite ES, EN; reflexivity).
  rewrite FD, ES, EN. cbn [negb].
  assert (X : exists be, match resolve_min_step (c_ms c) ms with Some m => let! q := n_div (Fin b) m in n_round q | None => Ok 0%Z end = Ok be).
  { destruct (resolve_min_step (c_ms c) ms) as [m|]; [|eauto]. destruct (M m eq_refl) as [q [-> Hq]].
    cbn. destruct (Qceqb q 0) eqn:E; [apply Qceqb_true in E; subst q; qc_lra|]. cbn. eauto. }
  destruct X as [be ->]. cbn [rbind]. rewrite Y by (auto; apply Qcle_refl).
  destruct (floor_steps a b h AB Hh) as [L1 L2]. fold n in L1, L2.
  replace (n_add (Fin a) (Fin h)) with (Fin (a + QcofZ (Z.of_nat 1) * h)%Qc).
  2:{ cbn [n_add XQ xq_add]. f_equal. change (Z.of_nat 1) with 1%Z. rewrite QcofZ_1. ring. }
  assert (G : sp_step_loop fuel c (Fin b) (Fin h) (Fin (a + QcofZ (Z.of_nat 1) * h)%Qc) = Ok (grid f a h 1 n)).
  { apply (step_loop_grid c f a b h Hh Y n 1 fuel F).
    - destruct n; [left; reflexivity|right]. replace (1 + S n - 1)%nat with (S n) by lia. exact L1.
    - exact L2. }
  rewrite G. destruct (i_so (sampled_domain c domain)); reflexivity.
Qed.

End Sample.
