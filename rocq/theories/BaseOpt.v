(** The optimiser loops and the concrete curves used by the base-class
    examples and refutations. *)
From Coq Require Import List ZArith QArith Qcanon Bool Lia Lqa Sorting.Sorted.
From Verif Require Import Base Num NumFacts Interval IntervalFacts Curve BaseFacts.
From Verif Require Import Points PointsSpec PointsIdx PointsQuery PointsOps PointsDec PointsHist PointsRefute PointsTop PointsEx BaseTop.
Import ListNotations.

Section Opt.
Variable c : crv xq (option xq).
Variables (ms step : option xq).

Lemma min_stops : forall n x xp r, minimise_loop n c ms step (Some x) xp = Ok (Some r) ->
  stopped c ms step lt_x n x r \/ ((0 < n)%nat /\ c_y c x = Ok None /\ xp = Some r).
Proof.
  induction n as [|n IH]; intros x xp r E; cbn [minimise_loop] in E.
  - injection E as <-. left. apply st_limit. constructor.
  - destruct (c_y c x) as [[y|]|] eqn:Y; cbn [rbind] in E; [| |discriminate].
    2:{ injection E as ->. right. split; [lia|auto]. }
    left. fold (slope c false x) in E. fold (slope c true x) in E.
    destruct (slope c false x) as [dy0|] eqn:S0; cbn [rbind] in E; [|discriminate].
    destruct (slope c true x) as [dy1|] eqn:S1; cbn [rbind] in E; [|discriminate].
    assert (GO : forall fw : bool, (let! x' := match step with
                  | Some h => Ok (Some (if fw then n_add x h else n_sub x h))
                  | None => if fw then c_next c x ms None else c_prev c x ms None end in
                minimise_loop n c ms step x' (Some x)) = Ok (Some r) -> stopped c ms step lt_x (S n) x r).
    { intros fw G. remember (match step with Some h => Ok (Some (if fw then n_add x h else n_sub x h))
                  | None => if fw then c_next c x ms None else c_prev c x ms None end) as t eqn:X. symmetry in X. destruct t as [x'|]; [|discriminate]. cbn [rbind] in G.
      destruct x' as [z|]; [|destruct n; discriminate].
      assert (M : move c ms step x (Some z)).
      { unfold move. destruct step as [h|]; [injection X as <-; destruct fw; auto|destruct fw; auto]. }
      apply IH in G. destruct G as [G|[L [G1 G2]]].
      - now apply stopped_step with (z := z).
      - injection G2 as <-. apply st_edge with (k := 0%nat) (z := z); auto; [lia|constructor]. }
    destruct dy0 as [d0|], dy1 as [d1|].
    + destruct (n_ltb (n_mul d0 d1) n_zero && n_leb d0 n_zero && n_geb d1 n_zero) eqn:B.
      * rewrite !andb_true_iff in B. destruct B as [[B1 B2] B3]. injection E as <-.
        destruct (mul_neg_cases d0 d1 B1 B2 B3) as [C0 C1].
        apply st_opt with (k := 0%nat) (d0 := d0) (d1 := d1); auto; [lia|constructor].
      * destruct (n_ltb (n_mul d0 d1) n_zero); now apply GO in E.
    + destruct (n_geb d0 n_zero); [exact (GO false E)|discriminate].
    + destruct (n_leb d1 n_zero); [exact (GO true E)|discriminate].
    + injection E as <-. apply st_flat with (k := 0%nat); auto; [lia|constructor].
Qed.

Lemma mul_neg_cases' d0 d1 : xq_ltb (xq_mul d0 d1) n_zero = true -> xq_leb n_zero d0 = true -> xq_leb d1 n_zero = true ->
  lt_x n_zero d0 /\ lt_x d1 n_zero.
Proof.
  intros A B C. assert (A' : xq_ltb (xq_mul d1 d0) n_zero = true).
  { destruct d0, d1; try discriminate; cbn in *; auto. rewrite Qcmult_comm. exact A. }
  destruct (mul_neg_cases d1 d0 A' C B). auto.
Qed.

Lemma max_stops : forall n x xp r, maximise_loop n c ms step (Some x) xp = Ok (Some r) ->
  stopped c ms step (fun a b => lt_x b a) n x r \/ ((0 < n)%nat /\ c_y c x = Ok None /\ xp = Some r).
Proof.
  induction n as [|n IH]; intros x xp r E; cbn [maximise_loop] in E.
  - injection E as <-. left. apply st_limit. constructor.
  - destruct (c_y c x) as [[y|]|] eqn:Y; cbn [rbind] in E; [| |discriminate].
    2:{ injection E as ->. right. split; [lia|auto]. }
    left. fold (slope c false x) in E. fold (slope c true x) in E.
    destruct (slope c false x) as [dy0|] eqn:S0; cbn [rbind] in E; [|discriminate].
    destruct (slope c true x) as [dy1|] eqn:S1; cbn [rbind] in E; [|discriminate].
    assert (GO : forall fw : bool, (let! x' := match step with
                  | Some h => Ok (Some (if fw then n_add x h else n_sub x h))
                  | None => if fw then c_next c x ms None else c_prev c x ms None end in
                maximise_loop n c ms step x' (Some x)) = Ok (Some r) -> stopped c ms step (fun a b => lt_x b a) (S n) x r).
    { intros fw G. remember (match step with Some h => Ok (Some (if fw then n_add x h else n_sub x h))
                  | None => if fw then c_next c x ms None else c_prev c x ms None end) as t eqn:X. symmetry in X. destruct t as [x'|]; [|discriminate]. cbn [rbind] in G.
      destruct x' as [z|]; [|destruct n; discriminate].
      assert (M : move c ms step x (Some z)).
      { unfold move. destruct step as [h|]; [injection X as <-; destruct fw; auto|destruct fw; auto]. }
      apply IH in G. destruct G as [G|[L [G1 G2]]].
      - now apply stopped_step with (z := z).
      - injection G2 as <-. apply st_edge with (k := 0%nat) (z := z); auto; [lia|constructor]. }
    destruct dy0 as [d0|], dy1 as [d1|].
    + destruct (n_ltb (n_mul d0 d1) n_zero && n_geb d0 n_zero && n_leb d1 n_zero) eqn:B.
      * rewrite !andb_true_iff in B. destruct B as [[B1 B2] B3]. injection E as <-.
        destruct (mul_neg_cases' d0 d1 B1 B2 B3) as [C0 C1].
        apply st_opt with (k := 0%nat) (d0 := d0) (d1 := d1); auto; [lia|constructor].
      * destruct (n_ltb (n_mul d0 d1) n_zero); now apply GO in E.
    + destruct (n_leb d0 n_zero); [exact (GO false E)|discriminate].
    + destruct (n_geb d1 n_zero); [exact (GO true E)|discriminate].
    + injection E as <-. apply st_flat with (k := 0%nat); auto; [lia|constructor].
Qed.

(** ** What the slopes say about the neighbouring values *)
(** values are finite numbers or None, neighbours are strictly to the left and right *)
Definition finite_values : Prop := forall z v, c_y c z = Ok (Some v) -> exists q, v = Fin q.
Definition step_min : option xq := resolve_min_step (c_ms c) (Some MIN_STEP).
Definition strict_neighbours : Prop :=
  (forall p x1, c_next c (Fin p) step_min None = Ok (Some x1) -> exists q, x1 = Fin q /\ (p < q)%Qc) /\
  (forall p x1, c_prev c (Fin p) step_min None = Ok (Some x1) -> exists q, x1 = Fin q /\ (q < p)%Qc).

(** the value at [p] compared with the values at the previous and next positions *)
Definition local_optimum (better : Qc -> Qc -> Prop) (p : Qc) : Prop :=
  exists x0 y0 y x1 y1,
    c_prev c (Fin p) step_min None = Ok (Some (Fin x0)) /\ c_next c (Fin p) step_min None = Ok (Some (Fin x1)) /\
    (x0 < p)%Qc /\ (p < x1)%Qc /\
    c_y c (Fin x0) = Ok (Some (Fin y0)) /\ c_y c (Fin p) = Ok (Some (Fin y)) /\ c_y c (Fin x1) = Ok (Some (Fin y1)) /\
    better y y0 /\ better y y1.

Lemma quot_sign_pos n d : (0 < d)%Qc -> ((0 < n / d <-> 0 < n) /\ (n / d < 0 <-> n < 0))%Qc.
Proof.
  intros Hd. assert (NZ : d <> 0%Qc) by (intros ->; qc_lra). assert (E : (n / d * d)%Qc = n) by (field; auto).
  revert E. generalize (n / d)%Qc. intros u <-. split; split; intros; qc_nra.
Qed.
Lemma quot_sign_neg n d : (d < 0)%Qc -> ((0 < n / d <-> n < 0) /\ (n / d < 0 <-> 0 < n))%Qc.
Proof.
  intros Hd. assert (NZ : d <> 0%Qc) by (intros ->; qc_lra). assert (E : (n / d * d)%Qc = n) by (field; auto).
  revert E. generalize (n / d)%Qc. intros u <-. split; split; intros; qc_nra.
Qed.

Lemma slopes_meaning p d0 d1 : finite_values -> strict_neighbours ->
  slope c false (Fin p) = Ok (Some d0) -> slope c true (Fin p) = Ok (Some d1) ->
  exists x0 y0 y x1 y1 q0 q1,
    c_prev c (Fin p) step_min None = Ok (Some (Fin x0)) /\ c_next c (Fin p) step_min None = Ok (Some (Fin x1)) /\
    (x0 < p)%Qc /\ (p < x1)%Qc /\
    c_y c (Fin x0) = Ok (Some (Fin y0)) /\ c_y c (Fin p) = Ok (Some (Fin y)) /\ c_y c (Fin x1) = Ok (Some (Fin y1)) /\
    d0 = Fin q0 /\ d1 = Fin q1 /\ ((q0 < 0 <-> y < y0) /\ (0 < q0 <-> y0 < y) /\ (0 < q1 <-> y < y1) /\ (q1 < 0 <-> y1 < y))%Qc.
Proof.
  intros FV [SN SP] S0 S1. unfold slope in *.
  destruct (dy_some c (Fin p) false (Some MIN_STEP) None d0 p) as [x0 [u0 [y0 [A1 [A2 [A3 [A4 A5]]]]]]]; auto.
  { intros x1 E. destruct (SP p x1 E) as [q [-> L]]. exists q. split; auto. intros ->. qc_lra. }
  destruct (dy_some c (Fin p) true (Some MIN_STEP) None d1 p) as [x1 [u1 [y1 [B1 [B2 [B3 [B4 B5]]]]]]]; auto.
  { intros x1 E. destruct (SN p x1 E) as [q [-> L]]. exists q. split; auto. intros ->. qc_lra. }
  rewrite A3 in B3. injection B3 as <-. fold step_min in A1, B1.
  destruct (SP p _ A1) as [z [Z L0]]. injection Z as <-. destruct (SN p _ B1) as [z [Z L1]]. injection Z as <-.
  exists x0, y0, u0, x1, y1. do 2 eexists. do 7 (split; [eassumption|]). split; [exact A5|]. split; [exact B5|].
  assert (D0 : (x0 - p < 0)%Qc) by qc_lra. assert (D1 : (0 < x1 - p)%Qc) by qc_lra.
  destruct (quot_sign_neg (y0 - u0) _ D0) as [E1 E2]. destruct (quot_sign_pos (y1 - u0) _ D1) as [E3 E4].
  rewrite E1, E2, E3, E4. repeat split; intros; qc_lra.
Qed.

(** [stopped] in terms of values *)
Definition stopped_at (better : Qc -> Qc -> Prop) (n : nat) (x : xq) (p : Qc) : Prop :=
  (exists k, (k < n)%nat /\ moves c ms step k x (Fin p) /\ local_optimum better p) \/
  (exists k, (k < n)%nat /\ moves c ms step k x (Fin p) /\ slope c false (Fin p) = Ok None /\ slope c true (Fin p) = Ok None) \/
  (exists k z, (S k < n)%nat /\ moves c ms step k x (Fin p) /\ move c ms step (Fin p) (Some z) /\ c_y c z = Ok None) \/
  moves c ms step n x (Fin p).

Lemma minimise_stops n x p : finite_values -> strict_neighbours ->
  minimise n c x ms step = Ok (Some (Fin p)) -> stopped_at Qclt n x p.
Proof.
  intros FV SN E. destruct (min_stops _ _ _ _ E) as [S|[_ [_ X]]]; [|discriminate].
  destruct S as [k d0 d1 K P E0 E1 B0 B1|k K P E0 E1|k w K P M' Y|P].
  - left. exists k. split; auto. split; auto.
    destruct (slopes_meaning p d0 d1 FV SN E0 E1) as [x0 [y0 [y [x1 [y1 [q0 [q1 [A1 [A2 [A3 [A4 [A5 [A6 [A7 [-> [-> [C1 [C2 [C3 C4]]]]]]]]]]]]]]]]]]].
    exists x0, y0, y, x1, y1. repeat (split; [assumption|]). split; [apply C1|apply C3]; now apply Qcltb_true.
  - right; left. eauto.
  - right; right; left. eauto 6.
  - right; right; right. exact P.
Qed.
Lemma maximise_stops n x p : finite_values -> strict_neighbours ->
  maximise n c x ms step = Ok (Some (Fin p)) -> stopped_at (fun a b => b < a)%Qc n x p.
Proof.
  intros FV SN E. destruct (max_stops _ _ _ _ E) as [S|[_ [_ X]]]; [|discriminate].
  destruct S as [k d0 d1 K P E0 E1 B0 B1|k K P E0 E1|k w K P M' Y|P].
  - left. exists k. split; auto. split; auto.
    destruct (slopes_meaning p d0 d1 FV SN E0 E1) as [x0 [y0 [y [x1 [y1 [q0 [q1 [A1 [A2 [A3 [A4 [A5 [A6 [A7 [-> [-> [C1 [C2 [C3 C4]]]]]]]]]]]]]]]]]]].
    exists x0, y0, y, x1, y1. repeat (split; [assumption|]). split; [apply C2|apply C4]; now apply Qcltb_true.
  - right; left. eauto.
  - right; right; left. eauto 6.
  - right; right; right. exact P.
Qed.
End Opt.

(** ** Points curves meet the hypotheses *)
Section PointsHyp.
Implicit Type s : pts xq (option xq).

Lemma points_next_fin s p m lim x1 : honest_history s -> (0 < m)%Qc ->
  p_x_next s (Fin p) (Some (Fin m)) lim = Ok (Some x1) -> exists q, x1 = Fin q /\ (p < q)%Qc.
Proof.
  intros H Hm E. destruct (top_next s (Fin p) m lim H) as [y [E' Hy]]; [discriminate|].
  rewrite E in E'. injection E' as <-. destruct Hy as [[v I] [L _]].
  destruct (history_asc s H) as [F _]. destruct (proj1 (Forall_forall _ _) F _ I) as [q Q]. cbn in Q. subst. exists q. split; auto.
  apply Qcleb_true in L. qc_lra.
Qed.
Lemma points_prev_fin s p m lim x1 : honest_history s -> (0 < m)%Qc ->
  p_x_previous s (Fin p) (Some (Fin m)) lim = Ok (Some x1) -> exists q, x1 = Fin q /\ (q < p)%Qc.
Proof.
  intros H Hm E. destruct (top_previous s (Fin p) m lim H) as [y [E' Hy]]; [discriminate|].
  rewrite E in E'. injection E' as <-. destruct Hy as [[v I] [L _]].
  destruct (history_asc s H) as [F _]. destruct (proj1 (Forall_forall _ _) F _ I) as [q Q]. cbn in Q. subst. exists q. split; auto.
  apply Qcleb_true in L. qc_lra.
Qed.
Lemma min_step_val : exists q, (MIN_STEP (T := xq)) = Fin q /\ (0 < q)%Qc.
Proof. eexists. split; [reflexivity|]. apply Qcltb_true. vm_compute. reflexivity. Qed.

Lemma points_strict s : honest_history s -> strict_neighbours (p_crv s).
Proof.
  intros H. destruct min_step_val as [q [E L]]. unfold strict_neighbours, step_min. cbn [c_ms p_crv c_next c_prev resolve_min_step].
  rewrite E. split; intros p x1 X; [apply (points_next_fin s p q None)|apply (points_prev_fin s p q None)]; auto.
Qed.
Lemma points_advances s m e : honest_history s -> (0 < m)%Qc -> advances (p_crv s) (Fin m) e.
Proof.
  intros H Hm x x1 L E. destruct (points_next_fin s x m _ x1 H Hm E) as [q [-> Q]]. now apply Qcltb_true.
Qed.
Definition finite_points s : Prop := forall x v, In (x, Some v) (p_pts s) -> exists q, v = Fin q.
Lemma points_finite_values s : honest_history s -> finite_points s -> finite_values (p_crv s).
Proof.
  intros H F z v E. cbn [c_y p_crv] in E. destruct z as [q| | |].
  2-4: rewrite top_y_nonfinite in E; auto; [discriminate|intros [? X]; discriminate].
  destruct (top_y s q H (fun _ => lerp_total_num)) as [w [E' [Hv _]]]. rewrite E in E'. injection E' as <-.
  assert (IN : forall (l1 : list (xq * option xq)) (A B : xq * option xq) l2, p_pts s = l1 ++ A :: B :: l2 -> In A (p_pts s) /\ In B (p_pts s)).
  { intros l1 A B l2 ->. split; [apply in_elt|apply in_or_app; right; right; left; reflexivity]. }
  inversion Hv as [v0 I|v0 l1 a b vb l2 HI Hp L1 L2|v0 l1 a b va l2 HI Hp L1 L2|v0 l1 a va b vb l2 HI Hp L1 L2 Q|O]; subst.
  - eapply F; eauto.
  - eapply F. apply (IN _ _ _ _ Hp).
  - eapply F. apply (IN _ _ _ _ Hp).
  - destruct va as [va|], vb as [vb|]; try discriminate. destruct (IN _ _ _ _ Hp) as [I1 I2].
    destruct (F _ _ I1) as [u ->]. destruct (F _ _ I2) as [w ->]. cbn in Q. injection Q as <-. eauto.
Qed.
End PointsHyp.

(** ** Concrete curves *)
(** a curve with the base-class stepping, infinite domain and y(x) = x
    (the interface of Line(1, 0), line.py) *)
Definition ident_crv : crv xq (option xq) :=
  mkC i_infinite (fun x => Ok (Some x)) (base_x_next i_infinite None) (base_x_previous i_infinite None) None.
Lemma ident_base : base_stepping ident_crv. Proof. intros x ms lim. reflexivity. Qed.

(** a plateau at the bottom: 2 1 1 2 *)
Definition plateau_list := [(fz 0, nv 2); (fz 1, nv 1); (fz 2, nv 1); (fz 3, nv 2)].
Definition plateau : npts := st (p_init plateau_list ILinear true).
Lemma plateau_hist : uniform_history plateau.
Proof.
  apply uh_init with (l := plateau_list) (ip := ILinear) (evs := evs_of (p_init plateau_list ILinear true)).
  - apply ascb_sound; vm_compute; reflexivity.
  - apply (eqsb_sound _ (QcofZ 0) (QcofZ 1)); vm_compute; reflexivity.
  - unfold plateau, st, evs_of. apply pair3. vm_compute. reflexivity.
Qed.

Lemma plateau_0 n xp : minimise_loop (S n) (p_crv plateau) (Some MIN_STEP) None (Some (fz 0)) xp =
  minimise_loop n (p_crv plateau) (Some MIN_STEP) None (Some (fz 1)) (Some (fz 0)).
Proof.
  cbn [minimise_loop].
  rewrite (is_val_eq (c_y (p_crv plateau) (fz 0)) (fz 2)) by (vm_compute; reflexivity). cbn [rbind].
  rewrite (is_opt_eq (d_y (p_crv plateau) (fz 0) false (Some MIN_STEP) None) None) by (vm_compute; reflexivity). cbn [rbind].
  rewrite (is_opt_eq (d_y (p_crv plateau) (fz 0) true (Some MIN_STEP) None) (Some (fz (-1)))) by (vm_compute; reflexivity). cbn [rbind].
  replace (n_leb (fz (-1)) n_zero) with true by (vm_compute; reflexivity).
  rewrite (is_opt_eq (c_next (p_crv plateau) (fz 0) (Some MIN_STEP) None) (Some (fz 1))) by (vm_compute; reflexivity). reflexivity.
Qed.
Lemma plateau_1 n xp : minimise_loop (S n) (p_crv plateau) (Some MIN_STEP) None (Some (fz 1)) xp =
  minimise_loop n (p_crv plateau) (Some MIN_STEP) None (Some (fz 0)) (Some (fz 1)).
Proof.
  cbn [minimise_loop].
  rewrite (is_val_eq (c_y (p_crv plateau) (fz 1)) (fz 1)) by (vm_compute; reflexivity). cbn [rbind].
  rewrite (is_opt_eq (d_y (p_crv plateau) (fz 1) false (Some MIN_STEP) None) (Some (fz (-1)))) by (vm_compute; reflexivity). cbn [rbind].
  rewrite (is_opt_eq (d_y (p_crv plateau) (fz 1) true (Some MIN_STEP) None) (Some (fz 0))) by (vm_compute; reflexivity). cbn [rbind].
  replace (n_ltb (n_mul (fz (-1)) (fz 0)) n_zero) with false by (vm_compute; reflexivity). cbn [andb].
  replace (n_ltb (fz 0) n_zero) with false by (vm_compute; reflexivity).
  rewrite (is_opt_eq (c_prev (p_crv plateau) (fz 1) (Some MIN_STEP) None) (Some (fz 0))) by (vm_compute; reflexivity). reflexivity.
Qed.
Lemma plateau_osc : forall n xp, minimise_loop (n + n) (p_crv plateau) (Some MIN_STEP) None (Some (fz 0)) xp = Ok (Some (fz 0)).
Proof.
  induction n as [|n IH]; intros xp; [reflexivity|].
  replace (S n + S n)%nat with (S (S (n + n))) by lia. rewrite plateau_0, plateau_1. apply IH.
Qed.
(** for every even number of iterations the search on the plateau ends where
    it began, at value 2, although the neighbouring value is 1 *)
Lemma plateau_refutes :
  exists s : npts, uniform_history s /\ exists p q : Qc,
    c_next (p_crv s) (Fin p) (Some MIN_STEP) None = Ok (Some (Fin q)) /\
    (exists u v, p_y s (Fin p) = Ok (Some (Fin u)) /\ p_y s (Fin q) = Ok (Some (Fin v)) /\ (v < u)%Qc) /\
    forall n, minimise (n + n) (p_crv s) (Fin p) (Some MIN_STEP) None = Ok (Some (Fin p)).
Proof.
  exists plateau. split; [exact plateau_hist|]. exists (QcofZ 0), (QcofZ 1). split; [|split].
  - apply (is_opt_eq (c_next (p_crv plateau) (fz 0) (Some MIN_STEP) None) (Some (fz 1))). vm_compute. reflexivity.
  - exists (QcofZ 2), (QcofZ 1). split; [|split].
    + apply (is_val_eq (p_y plateau (fz 0)) (fz 2)). vm_compute. reflexivity.
    + apply (is_val_eq (p_y plateau (fz 1)) (fz 1)). vm_compute. reflexivity.
    + apply Qcltb_true. vm_compute. reflexivity.
  - intros n. exact (plateau_osc n None).
Qed.

(** 3 1 2: a strict minimum at x = 1; with the search step 5 the next position
    is None.  The modelled loop calls y(None): TypeError. *)
Definition vee_list := [(fz 0, nv 3); (fz 1, nv 1); (fz 2, nv 2)].
Definition vee : npts := st (p_init vee_list ILinear true).
Lemma vee_hist : uniform_history vee.
Proof.
  apply uh_init with (l := vee_list) (ip := ILinear) (evs := evs_of (p_init vee_list ILinear true)).
  - apply ascb_sound; vm_compute; reflexivity.
  - apply (eqsb_sound _ (QcofZ 0) (QcofZ 1)); vm_compute; reflexivity.
  - unfold vee, st, evs_of. apply pair3. vm_compute. reflexivity.
Qed.
Lemma vee_finite : finite_points vee.
Proof.
  intros x v I. replace (p_pts vee) with vee_list in I by (vm_compute; reflexivity).
  cbn in I. unfold nv, fz in I. intuition; match goal with H : (_, _) = _ |- _ => injection H as <- <- end; eauto.
Qed.
