(** Decision procedures and concrete instances for the base-class properties. *)
From Coq Require Import List ZArith QArith Qcanon Bool Lia Sorting.Sorted.
From Verif Require Import Base Num NumFacts Interval IntervalFacts Curve BaseFacts.
From Verif Require Import Points PointsSpec PointsOps PointsDec PointsHist PointsRefute PointsTop PointsEx BaseTop BaseOpt.
Import ListNotations.

Definition oxq_eqb (a b : option xq) : bool :=
  match a, b with Some a, Some b => xq_eqb a b | None, None => true | _, _ => false end.
Lemma oxq_eqb_eq a b : oxq_eqb a b = true -> a = b.
Proof. destruct a, b; try discriminate; auto. cbn. intros H. now rewrite (xq_eqb_eq _ _ H). Qed.
Fixpoint ptsb (l m : list (xq * option xq)) : bool :=
  match l, m with
  | [], [] => true
  | (x, v) :: l, (y, w) :: m => xq_eqb x y && oxq_eqb v w && ptsb l m
  | _, _ => false
  end.
Lemma ptsb_eq l : forall m, ptsb l m = true -> l = m.
Proof.
  induction l as [|[x v] l IH]; intros [|[y w] m]; try discriminate; auto. cbn. rewrite !andb_true_iff. intros [[A B] C].
  now rewrite (xq_eqb_eq _ _ A), (oxq_eqb_eq _ _ B), (IH _ C).
Qed.
Definition is_pts (r : res (list (xq * option xq))) (l : list (xq * option xq)) : bool :=
  match r with Ok m => ptsb m l | Err _ => false end.
Lemma is_pts_eq r l : is_pts r l = true -> r = Ok l.
Proof. destruct r; try discriminate. cbn. intros H. now rewrite (ptsb_eq _ _ H). Qed.

(** no_tie by computation: 2q is not an odd integer *)
Definition no_tieb (q : Qc) : bool := negb (Qceqb (QcofZ (Qcfloor q) + half)%Qc q).
Lemma no_tieb_sound q : no_tieb q = true -> no_tie q.
Proof.
  unfold no_tieb. rewrite negb_true_iff. intros H z ->. apply Qceqb_false in H. apply H.
  replace (Qcfloor (QcofZ z + half)) with z; auto. symmetry. pose proof half_Q as HQ.
  apply Qcfloor_unique; rewrite ?QcofZ_add, ?QcofZ_1; qc_lra.
Qed.

Definition iv (a b : xq) (so eo : bool) : ival xq := mkI a b so eo.

(** Requests made to the identity curve *)
Lemma ident_closed_ex : sample_points 10 ident_crv (Some (iv (fz 0) (fr 5 2) false false)) (Some (fz 1)) None =
  Ok [(fz 0, nv 0); (fz 1, nv 1); (fz 2, nv 2); (fr 5 2, Some (fr 5 2))].
Proof. apply is_pts_eq. vm_compute. reflexivity. Qed.
Lemma ident_step_ex : sample_points 10 ident_crv (Some (iv (fz 0) (fr 5 2) true false)) (Some MIN_STEP) (Some (fz 1)) =
  Ok [(fz 1, nv 1); (fz 2, nv 2)].
Proof. apply is_pts_eq. vm_compute. reflexivity. Qed.
(** the end of an open interval is returned *)
Lemma ident_open_ex : sample_points 10 ident_crv (Some (iv (fz 0) (fz 2) false true)) (Some (fz 1)) None =
  Ok [(fz 0, nv 0); (fz 1, nv 1); (fz 2, nv 2)].
Proof. apply is_pts_eq. vm_compute. reflexivity. Qed.
Lemma ident_tie_ex : sample_points 10 ident_crv (Some (iv (fr 1 2) (fr 7 2) false false)) (Some (fz 1)) None = Err EExc.
Proof. vm_compute. reflexivity. Qed.
Lemma ident_point_ex : sample_points 10 ident_crv (Some (iv (fz 1) (fz 1) false false)) (Some MIN_STEP) None =
  Ok [(fz 1, nv 1); (fz 1, nv 1)].
Proof. apply is_pts_eq. vm_compute. reflexivity. Qed.
Lemma points_index_ex : p_sample_points 10 ex_u (Some (iv (fr 1 2) (fr 3 2) true false)) (Some (fz 2)) None = Err EIndex.
Proof. vm_compute. reflexivity. Qed.

(** a tie makes the loop stop with an exception, whatever the fuel *)
Lemma ident_tie_all fuel : sample_points (4 + fuel) ident_crv (Some (iv (fr 1 2) (fr 7 2) false false)) (Some (fz 1)) None = Err EExc.
Proof. vm_compute. reflexivity. Qed.

Lemma is_none_opt {A} (v : option A) : (match v with None => true | _ => false end) = true <-> v = None.
Proof. destruct v; split; try discriminate; auto. Qed.
Definition onone {A} (v : option A) : bool := match v with None => true | Some _ => false end.

Lemma walk_ex : sample_points_from_x onone (p_crv ex_u) (fz 1) 2 false true (Some MIN_STEP) = Ok [(fz 2, nv 2); (fz 3, nv 9)].
Proof. apply is_pts_eq. vm_compute. reflexivity. Qed.
Lemma walk_neg_ex : sample_points_from_x onone (p_crv ex_u) (fz 2) (-5) false true (Some MIN_STEP) = Ok [(fz 1, nv 1); (fz 0, nv 0)].
Proof. apply is_pts_eq. vm_compute. reflexivity. Qed.
(** open=False asks for the 2 points from x = 1 on and gets only x = 2 *)
Lemma walk_closed_ex : sample_points_from_x onone (p_crv ex_u) (fz 1) 2 false false (Some MIN_STEP) = Ok [(fz 2, nv 2)].
Proof. apply is_pts_eq. vm_compute. reflexivity. Qed.
(** the default min_step=None on a curve without its own *)
Lemma walk_default_ex : sample_points_from_x onone ident_crv (fz 1) 2 false true None = Err EType.
Proof. vm_compute. reflexivity. Qed.

Lemma vee_min : minimise 1000 (p_crv vee) (fz 0) (Some MIN_STEP) None = Ok (Some (fz 1)).
Proof. apply is_opt_eq. vm_compute. reflexivity. Qed.
Lemma vee_max : maximise 1000 (p_crv vee) (fz 0) (Some MIN_STEP) None = Ok None.
Proof. apply is_opt_eq. vm_compute. reflexivity. Qed.
(** a search step larger than the distance to the last point: y(None) *)
Lemma vee_type : minimise 1000 (p_crv vee) (fz 0) (Some (fz 5)) None = Err EType.
Proof. vm_compute. reflexivity. Qed.
(** 1 3 2 *)
Definition peak_list := [(fz 0, nv 1); (fz 1, nv 3); (fz 2, nv 2)].
Definition peak : npts := st (p_init peak_list ILinear true).
Lemma peak_hist : uniform_history peak.
Proof.
  apply uh_init with (l := peak_list) (ip := ILinear) (evs := evs_of (p_init peak_list ILinear true)).
  - apply ascb_sound; vm_compute; reflexivity.
  - apply (eqsb_sound _ (QcofZ 0) (QcofZ 1)); vm_compute; reflexivity.
  - unfold peak, st, evs_of. apply pair3. vm_compute. reflexivity.
Qed.
Lemma peak_finite : finite_points peak.
Proof.
  intros x v I. replace (p_pts peak) with peak_list in I by (vm_compute; reflexivity).
  cbn in I. unfold nv, fz in I. intuition; match goal with H : (_, _) = _ |- _ => injection H as <- <- end; eauto.
Qed.
Lemma peak_max : maximise 1000 (p_crv peak) (fz 2) (Some MIN_STEP) None = Ok (Some (fz 1)).
Proof. apply is_opt_eq. vm_compute. reflexivity. Qed.

(** the default grid, for a base-stepping curve *)
Lemma sample_grid {V} (c : crv xq V) (f : Qc -> V) domain ms a b m fuel :
  base_stepping c -> iok (c_dom c) -> (forall d, domain = Some d -> iok d) ->
  i_is_empty (sampled_domain c domain) = false ->
  i_start (sampled_domain c domain) = Fin a -> i_end (sampled_domain c domain) = Fin b -> i_eo (sampled_domain c domain) = false ->
  resolve_min_step (c_ms c) ms = Some (Fin m) -> (0 < m)%Qc -> (a < b)%Qc -> no_tie (a / m)%Qc ->
  (forall q, (a <= q)%Qc -> (q <= b)%Qc -> c_y c (Fin q) = Ok (f q)) ->
  let n := Z.to_nat (Qcfloor ((b - a) / m)) in
  (n + 1 < fuel)%nat ->
  sample_points fuel c domain ms None =
    Ok ((if i_so (sampled_domain c domain) then [] else [(Fin a, f a)]) ++ grid f a m 1 n ++
        (if Qceqb (a + QcofZ (Z.of_nat n) * m) b then [] else [(Fin b, f b)])).
Proof.
  intros BS Od Odd NE ES EN EO R Hm Hab T Y n F.
  apply (sample_ms_exact c f a b m Hm Hab T Y); auto.
  exact (base_next_grid c domain ms m b BS Od Odd NE EN EO R).
Qed.

Lemma open_end_refutes : exists (c : crv xq (option xq)) d pts x y,
  base_stepping c /\ sample_points 10 c (Some d) (Some (fz 1)) None = Ok pts /\ In (x, y) pts /\ ~ imem d x.
Proof.
  exists ident_crv, (iv (fz 0) (fz 2) false true), [(fz 0, nv 0); (fz 1, nv 1); (fz 2, nv 2)], (fz 2), (nv 2).
  split; [exact ident_base|]. split; [exact ident_open_ex|]. split; [right; right; left; reflexivity|].
  intros [_ H]. vm_compute in H. discriminate H.
Qed.
Lemma walk_closed_refutes : exists (s : pts xq (option xq)) x v, honest_history s /\ In (x, Some v) (p_pts s) /\
  exists l, sample_points_from_x onone (p_crv s) x 2 false false (Some MIN_STEP) = Ok l /\ length l = 1%nat /\ ~ In (x, Some v) l.
Proof.
  exists ex_u, (fz 1), (fz 1). split; [exact ex_u_honest|]. split.
  - rewrite ex_u_pts. right; left. reflexivity.
  - exists [(fz 2, nv 2)]. split; [exact walk_closed_ex|]. split; [reflexivity|]. intros [H|[]]. vm_compute in H. discriminate H.
Qed.
