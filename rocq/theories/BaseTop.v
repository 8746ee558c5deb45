(** Base-class algorithms, continued: the default sampling grid, walks,
    difference quotients, ranges and the optimiser loops. *)
From Coq Require Import List ZArith QArith Qcanon Bool Lia Lqa Sorting.Sorted.
From Verif Require Import Base Num NumFacts Interval IntervalFacts Curve BaseFacts.
From Verif Require Import Points PointsSpec PointsIdx PointsQuery PointsOps PointsDec PointsHist PointsRefute PointsTop.
Import ListNotations.

Lemma Qclt_neq a b : (a < b)%Qc -> a <> b. Proof. intros H ->. qc_lra. Qed.

Section Grid.
Context {V : Type}.
Variable c : crv xq V.
Variables (f : Qc -> V) (a b m : Qc).
Hypothesis Hm : (0 < m)%Qc.
Hypothesis Hab : (a < b)%Qc.
Hypothesis Htie : no_tie (a / m)%Qc.
Hypothesis Y : forall q, (a <= q)%Qc -> (q <= b)%Qc -> c_y c (Fin q) = Ok (f q).
Hypothesis Nx : forall q, c_next c (Fin q) (Some (Fin m)) (Some (Fin b)) =
  Ok (Some (Fin (if Qcltb b (q + m)%Qc then b else (q + m)%Qc))).

Local Notation n := (Z.to_nat (Qcfloor ((b - a) / m))).
Local Notation pt k := (a + QcofZ (Z.of_nat k) * m)%Qc.
Definition grid_tail (k : nat) : list (xq * V) := if Qceqb (pt k) b then [] else [(Fin b, f b)].

Lemma m_nz : m <> 0%Qc. Proof. intros E. revert Hm. rewrite E. intros H. qc_lra. Qed.
Lemma div_fin q : n_div (Fin q) (Fin m) = Ok (Fin (q / m)%Qc).
Proof. cbn. destruct (Qceqb m 0) eqn:E; auto. apply Qceqb_true in E. now apply m_nz in E. Qed.
Lemma bin_pt k : Qcround (pt k / m)%Qc = (Qcround (a / m) + Z.of_nat k)%Z.
Proof. rewrite <- Qcround_add by exact Htie. f_equal. field. apply m_nz. Qed.
Lemma div_mono x y : (x <= y)%Qc -> (x / m <= y / m)%Qc.
Proof.
  intros L. destruct (Qclt_le_dec (y / m) (x / m)) as [H|H]; auto. exfalso.
  assert (E1 : (x / m * m)%Qc = x) by (field; apply m_nz). assert (E2 : (y / m * m)%Qc = y) by (field; apply m_nz).
  revert E1 E2 H. generalize (x / m)%Qc (y / m)%Qc. intros u v <- <- H. qc_nra.
Qed.
Lemma grid_in k : (k <= n)%nat -> (a <= pt k)%Qc /\ (pt k <= b)%Qc.
Proof.
  intros H. destruct (floor_steps a b m (Qclt_le_weak _ _ Hab) Hm) as [L1 L2].
  assert (P : (0 <= QcofZ (Z.of_nat k))%Qc) by (rewrite <- QcofZ_0; apply QcofZ_le; lia).
  assert (P2 : (QcofZ (Z.of_nat k) <= QcofZ (Z.of_nat n))%Qc) by (apply QcofZ_le; lia).
  revert L1 P2. generalize (QcofZ (Z.of_nat n)). intros. split; qc_nra.
Qed.

Lemma ms_loop_end fuel : sp_ms_loop (S fuel) c (Fin b) (Fin m) (Qcround (b / m)) (Some (Fin b)) = Ok [(Fin b, f b)].
Proof.
  cbn [sp_ms_loop]. cbn [n_leb XQ xq_leb]. rewrite (proj2 (Qcleb_true b b) (Qcle_refl b)). cbn [negb].
  rewrite Y by (try apply Qcle_refl; now apply Qclt_le_weak). cbn [rbind]. rewrite div_fin. cbn [rbind n_round XQ xq_toZ].
  now rewrite Z.eqb_refl.
Qed.

Lemma ms_loop_grid : forall j k fuel, (k + j = n)%nat -> (j + 1 < fuel)%nat ->
  exists r, sp_ms_loop fuel c (Fin b) (Fin m) (Qcround (b / m)) (Some (Fin (pt k))) = Ok r /\
    (r = grid f a m k (S j) \/ r = grid f a m k (S j) ++ grid_tail n).
Proof.
  destruct (floor_steps a b m (Qclt_le_weak _ _ Hab) Hm) as [L1 L2].
  assert (BE : (Qcround (a / m) + Z.of_nat n <= Qcround (b / m))%Z).
  { rewrite <- bin_pt. apply Qcround_mono, div_mono. exact L1. }
  induction j as [|j IH]; intros k fuel K F; (destruct fuel as [|fu]; [lia|]).
  - assert (k = n) by lia. subst k. clear K. cbn [sp_ms_loop]. cbn [n_leb XQ xq_leb].
    rewrite (proj2 (Qcleb_true _ _) L1). cbn [negb].
    rewrite Y by (apply grid_in; lia). cbn [rbind]. rewrite div_fin. cbn [rbind n_round XQ xq_toZ]. rewrite bin_pt.
    destruct (Z.eqb _ (Qcround (b / m))) eqn:EB.
    + eexists. split; [reflexivity|]. left. reflexivity.
    + rewrite Nx. cbn [rbind].
      assert (Lt : (b < pt n + m)%Qc) by (rewrite grid_next; exact L2).
      rewrite (proj2 (Qcltb_true _ _) Lt). rewrite div_fin. cbn [rbind n_round XQ xq_toZ].
      apply Z.eqb_neq in EB. destruct (Z.leb_spec (Qcround (b / m)) (Qcround (a / m) + Z.of_nat n)) as [Q|Q]; [lia|].
      cbn [rbind]. destruct fu as [|fu]; [lia|]. rewrite ms_loop_end. cbn [rbind].
      eexists. split; [reflexivity|]. right. unfold grid_tail.
      destruct (Qceqb (pt n) b) eqn:E; [|reflexivity]. exfalso. apply Qceqb_true in E. apply EB. rewrite <- bin_pt, E. reflexivity.
  - assert (Hk : (k <= n)%nat) by lia. assert (Hk' : (S k <= n)%nat) by lia.
    destruct (grid_in k Hk) as [G1 G2]. destruct (grid_in (S k) Hk') as [G3 G4].
    cbn [sp_ms_loop]. cbn [n_leb XQ xq_leb]. rewrite (proj2 (Qcleb_true _ _) G2). cbn [negb].
    rewrite Y by auto. cbn [rbind]. rewrite div_fin. cbn [rbind n_round XQ xq_toZ]. rewrite bin_pt.
    destruct (Z.eqb_spec (Qcround (a / m) + Z.of_nat k) (Qcround (b / m))) as [Q|Q]; [lia|].
    rewrite Nx. cbn [rbind]. rewrite grid_next.
    rewrite (proj2 (Qcltb_false _ _) G4). rewrite div_fin. cbn [rbind n_round XQ xq_toZ]. rewrite bin_pt.
    destruct (Z.leb_spec (Qcround (a / m) + Z.of_nat (S k)) (Qcround (a / m) + Z.of_nat k)) as [R|R]; [lia|]. cbn [rbind].
    destruct (IH (S k) fu) as [r [E Hr]]; [lia|lia|]. rewrite E. cbn [rbind]. eexists. split; [reflexivity|].
    rewrite grid_cons. destruct Hr as [-> | ->]; [left|right]; reflexivity.
Qed.

Lemma last_grid k j : last_opt (grid f a m k (S j)) = Some (Fin (pt (k + j)), f (pt (k + j))).
Proof.
  unfold grid. replace (seq k (S j)) with (seq k j ++ [(k + j)%nat]) by (rewrite <- seq_S; reflexivity).
  rewrite map_app. unfold last_opt. rewrite rev_app_distr. reflexivity.
Qed.
Lemma last_app {A} (l r : list A) z : last_opt r = Some z -> last_opt (l ++ r) = Some z.
Proof. unfold last_opt. rewrite rev_app_distr. destruct (rev r); [discriminate|]. auto. Qed.

Lemma grid_final p0 r : (r = grid f a m 1 n \/ r = grid f a m 1 n ++ grid_tail n) ->
  (n = 0%nat -> p0 = [(Fin a, f a)] \/ r <> []) ->
  (match last_opt (p0 ++ r) with
   | None => Err EIndex
   | Some (xl, _) => if negb (n_eqb xl (Fin b)) then let! y := c_y c (Fin b) in Ok ((p0 ++ r) ++ [(Fin b, y)]) else Ok (p0 ++ r)
   end) = Ok (p0 ++ grid f a m 1 n ++ grid_tail n).
Proof.
  intros H H0.
  assert (Yb : c_y c (Fin b) = Ok (f b)) by (apply Y; [now apply Qclt_le_weak|apply Qcle_refl]). rewrite Yb.
  assert (LB : last_opt (p0 ++ grid f a m 1 n ++ [(Fin b, f b)]) = Some (Fin b, f b)) by (apply last_app, last_app; reflexivity).
  assert (Eb : n_eqb (Fin b) (Fin b) = true) by (cbn; apply Qceqb_refl).
  destruct (Qceqb (pt n) b) eqn:E.
  - assert (T : grid_tail n = []) by (unfold grid_tail; now rewrite E). rewrite T in *. rewrite app_nil_r in *. assert (r = grid f a m 1 n) by tauto. subst r.
    apply Qceqb_true in E. destruct n as [|k] eqn:En.
    + exfalso. cbn in E. apply (Qclt_neq _ _ Hab). rewrite <- E. change (QcofZ (Z.of_nat 0)) with (QcofZ 0). rewrite QcofZ_0. ring.
    + rewrite (last_app p0 _ _ (last_grid 1 k)). cbn [Nat.add]. rewrite E, Eb. reflexivity.
  - assert (T : grid_tail n = [(Fin b, f b)]) by (unfold grid_tail; now rewrite E). rewrite T in *.
    destruct H as [-> | ->].
    + destruct n as [|k] eqn:En.
      * destruct (H0 eq_refl) as [-> | X]; [|now destruct X]. cbn. destruct (Qceqb a b) eqn:Q; [apply Qceqb_true in Q; now apply (Qclt_neq _ _ Hab) in Q|]. reflexivity.
      * rewrite (last_app p0 _ _ (last_grid 1 k)). cbn [Nat.add]. cbn [n_eqb XQ xq_eqb]. rewrite E. cbn [negb rbind]. now rewrite <- app_assoc.
    + rewrite LB, Eb. reflexivity.
Qed.

Lemma sample_ms_exact domain ms fuel :
  i_is_empty (sampled_domain c domain) = false ->
  i_start (sampled_domain c domain) = Fin a -> i_end (sampled_domain c domain) = Fin b -> i_eo (sampled_domain c domain) = false ->
  resolve_min_step (c_ms c) ms = Some (Fin m) -> (n + 1 < fuel)%nat ->
  sample_points fuel c domain ms None =
    Ok ((if i_so (sampled_domain c domain) then [] else [(Fin a, f a)]) ++ grid f a m 1 n ++ grid_tail n).
Proof.
  intros NE ES EN EO R F. unfold sample_points. fold (sampled_domain c domain). cbv zeta. rewrite NE.
  assert (FD : i_is_finite (sampled_domain c domain) = true) by (unfold i_is_finite; rewrite ES, EN; reflexivity).
  rewrite FD, ES, EN, EO, R. cbn [negb]. rewrite div_fin. cbn [rbind n_round XQ xq_toZ].
  rewrite Y by (try apply Qcle_refl; now apply Qclt_le_weak).
  assert (G0 : n_gtb (Fin m) n_zero = true) by (cbn; now apply Qcltb_true). rewrite G0, Nx.
  set (p0 := if i_so (sampled_domain c domain) then [] else [(Fin a, f a)]).
  replace (if i_so (sampled_domain c domain) then Ok [] else let! y := Ok (f a) in Ok [(Fin a, y)]) with (Ok p0)
    by (unfold p0; destruct (i_so _); reflexivity). cbn [rbind].
  destruct (floor_steps a b m (Qclt_le_weak _ _ Hab) Hm) as [L1 L2].
  destruct n as [|k] eqn:En.
  - assert (Lt : (b < a + m)%Qc). { change (Z.of_nat 1) with 1%Z in L2. rewrite QcofZ_1 in L2. revert L2. intros. qc_lra. }
    rewrite (proj2 (Qcltb_true _ _) Lt). destruct fuel as [|fu]; [lia|]. rewrite ms_loop_end. cbn [rbind].
    pose proof (grid_final p0 [(Fin b, f b)]) as GF. rewrite En in GF. apply GF; [|right; discriminate]. right.
    cbn. unfold grid_tail. destruct (Qceqb (pt 0) b) eqn:E; auto. exfalso. apply Qceqb_true in E. apply (Qclt_neq _ _ Hab). rewrite <- E.
    change (QcofZ (Z.of_nat 0)) with (QcofZ 0). rewrite QcofZ_0. ring.
  - assert (P1 : (a + m)%Qc = pt 1) by (change (Z.of_nat 1) with 1%Z; rewrite QcofZ_1; ring).
    rewrite P1. assert (G : (pt 1 <= b)%Qc) by (apply grid_in; rewrite En; lia).
    rewrite (proj2 (Qcltb_false _ _) G).
    destruct (ms_loop_grid k 1 fuel) as [r [E Hr]]; [rewrite En; lia|lia|]. rewrite E. cbn [rbind].
    pose proof (grid_final p0 r) as GF. rewrite En in GF, Hr. apply GF; auto. discriminate.
Qed.
End Grid.

(** a curve whose stepping is the base class's *)
Definition base_stepping {V} (c : crv xq V) : Prop :=
  forall x ms lim, c_next c x ms lim = base_x_next (c_dom c) (c_ms c) x ms lim.

Lemma xq_max_self m : resolve_min_step (T := xq) (Some m) (Some m) = Some m.
Proof. simpl. unfold n_max. destruct (n_gtb m m); reflexivity. Qed.
Lemma base_next_grid {V} (c : crv xq V) domain ms m b :
  base_stepping c -> iok (c_dom c) -> (forall d, domain = Some d -> iok d) ->
  i_is_empty (sampled_domain c domain) = false ->
  i_end (sampled_domain c domain) = Fin b -> i_eo (sampled_domain c domain) = false ->
  resolve_min_step (c_ms c) ms = Some (Fin m) ->
  forall q, c_next c (Fin q) (Some (Fin m)) (Some (Fin b)) = Ok (Some (Fin (if Qcltb b (q + m)%Qc then b else (q + m)%Qc))).
Proof.
  intros BS Od Odd NE EN EO R q. rewrite BS. unfold base_x_next.
  assert (R' : resolve_min_step (c_ms c) (Some (Fin m)) = Some (Fin m)) by (rewrite <- R; apply resolve_idem).
  rewrite R'. cbn [n_isinf XQ n_add xq_add clip_up n_gtb n_ltb xq_ltb].
  set (t := if Qcltb b (q + m) then b else (q + m)%Qc).
  assert (Ht : (t <= b)%Qc).
  { unfold t. destruct (Qcltb b (q + m)) eqn:E; [apply Qcle_refl|now apply Qcltb_false in E]. }
  assert (OD : iok (sampled_domain c domain)).
  { unfold sampled_domain. destruct domain as [d|]; auto. apply iok_inter2; auto. }
  assert (ME : exists z, notnan z /\ imem (sampled_domain c domain) z) by (now apply nonempty_ex).
  assert (BE : imem (sampled_domain c domain) (Fin b)).
  { destruct ME as [z [Nz Mz]]. apply imem_emem; [auto|discriminate|]. apply imem_emem in Mz; auto.
    unfold emem in *. rewrite EO, EN in *. destruct Mz as [M1 M2]. split; [|lra]. destruct (i_so _); lra. }
  assert (BC : imem (c_dom c) (Fin b)).
  { unfold sampled_domain in BE. destruct domain as [d|]; auto. apply inter2_iff in BE; [tauto|auto|auto|discriminate]. }
  assert (C : i_contains_gen false true (c_dom c) (Fin t) = true).
  { apply contains_end_iff; [auto|discriminate|]. split; [exists (Fin b); split; [discriminate|auto]|].
    destruct BC as [_ BC]. assert (TB : le_x (Fin t) (Fin b)) by (now apply Qcleb_true).
    destruct Od as [_ Oe]. destruct (i_eo (c_dom c)).
    - apply lt_x_emb in BC; [|discriminate|auto]. apply le_x_emb in TB; [|discriminate|discriminate]. apply lt_x_emb; [discriminate|auto|]. lra.
    - apply le_x_emb in BC; [|discriminate|auto]. apply le_x_emb in TB; [|discriminate|discriminate]. apply le_x_emb; [discriminate|auto|]. lra. }
  unfold t in *. destruct (Qcltb b (q + m)); now rewrite C.
Qed.

Lemma base_advances {V} (c : crv xq V) m e : base_stepping c -> resolve_min_step (c_ms c) (Some (Fin m)) = Some (Fin m) ->
  (0 < m)%Qc -> advances c (Fin m) e.
Proof.
  intros BS R Hm x x1 L E. rewrite BS in E. unfold base_x_next in E. rewrite R in E.
  cbn [n_isinf XQ n_add xq_add clip_up n_gtb n_ltb xq_ltb] in E.
  assert (Q : x1 = Fin (if Qcltb e (x + m) then e else (x + m)%Qc)).
  { destruct (Qcltb e (x + m)); (destruct (i_contains_gen _ _ _ _); [|discriminate]); now injection E. }
  subst x1. apply Qcltb_true. destruct (Qcltb e (x + m)) eqn:T; auto. qc_lra.
Qed.

(** ** Walks from a position (C21) *)
Section Walk.
Context {V : Type} (isnone : V -> bool) (c : crv xq V).
Definition nb (backward : bool) (ms : option xq) (x : xq) : res (option xq) :=
  if backward then c_prev c x ms None else c_next c x ms None.
Fixpoint linked (backward : bool) (ms : option xq) (x : xq) (l : list (xq * V)) : Prop :=
  match l with
  | [] => True
  | (x1, y1) :: r => nb backward ms x = Ok (Some x1) /\ c_y c x1 = Ok y1 /\ isnone y1 = false /\ linked backward ms x1 r
  end.
(** the walk cannot go on from [x] *)
Definition stuck (backward : bool) (ms : option xq) (x : xq) : Prop :=
  nb backward ms x = Ok None \/ exists x1 y1, nb backward ms x = Ok (Some x1) /\ c_y c x1 = Ok y1 /\ isnone y1 = true.
Definition walk_end (x : xq) (l : list (xq * V)) : xq := match last_opt l with Some (z, _) => z | None => x end.

Lemma walk_end_cons x x1 y1 l : walk_end x ((x1, y1) :: l) = walk_end x1 l.
Proof.
  unfold walk_end, last_opt. cbn [rev]. destruct (rev l) as [|z zs] eqn:E; cbn; reflexivity.
Qed.
Lemma spfx_spec bw ms : forall n x l, spfx_loop isnone c bw ms n x = Ok l ->
  linked bw ms x l /\ (length l <= n)%nat /\ (length l < n -> stuck bw ms (walk_end x l))%nat.
Proof.
  induction n as [|n IH]; intros x l E; cbn [spfx_loop] in E.
  - injection E as <-. cbn. repeat split; auto. lia.
  - fold (nb bw ms x) in E. destruct (nb bw ms x) as [x1|] eqn:N; [|discriminate]. cbn [rbind] in E.
    destruct x1 as [x1|].
    2:{ injection E as <-. cbn. repeat split; auto; [lia|]. intros _. left. exact N. }
    destruct (c_y c x1) as [y1|] eqn:Y; [|discriminate]. cbn [rbind] in E. destruct (isnone y1) eqn:I.
    + injection E as <-. cbn. repeat split; auto; [lia|]. intros _. right. exists x1, y1. auto.
    + destruct (spfx_loop isnone c bw ms n x1) as [r|] eqn:L; [|discriminate]. cbn [rbind] in E. injection E as <-.
      destruct (IH _ _ L) as [H1 [H2 H3]]. cbn [linked length]. repeat split; auto; [lia|]. intros K. rewrite walk_end_cons. apply H3. lia.
Qed.
Lemma walk_open x limit bw ms l :
  sample_points_from_x isnone c x limit bw true ms = Ok l ->
  let d := if (limit <? 0)%Z then negb bw else bw in let s := resolve_min_step (c_ms c) ms in
  linked d s x l /\ (length l <= Z.abs_nat limit)%nat /\ (length l < Z.abs_nat limit -> stuck d s (walk_end x l))%nat.
Proof.
  intros E. unfold sample_points_from_x in E. cbn [negb] in E. cbv zeta in *.
  destruct (limit <? 0)%Z eqn:Q; (apply Z.ltb_lt in Q || apply Z.ltb_ge in Q); apply spfx_spec in E.
  - replace (Z.to_nat (- limit)) with (Z.abs_nat limit) in E by lia. exact E.
  - replace (Z.to_nat limit) with (Z.abs_nat limit) in E by lia. exact E.
Qed.
(** open=False: the point at [x] uses up one of the [limit] places but is not returned *)
Lemma walk_closed x limit bw ms l y :
  c_y c x = Ok y -> isnone y = false -> limit <> 0%Z ->
  sample_points_from_x isnone c x limit bw false ms = Ok l ->
  let d := if (limit <? 0)%Z then negb bw else bw in let s := resolve_min_step (c_ms c) ms in
  linked d s x l /\ (length l <= Z.abs_nat limit - 1)%nat /\ (length l < Z.abs_nat limit - 1 -> stuck d s (walk_end x l))%nat.
Proof.
  intros Ey I L0 E. unfold sample_points_from_x in E. cbn [negb] in E. cbv zeta in *. rewrite Ey in E. cbn [rbind] in E. rewrite I in E.
  destruct (limit <? 0)%Z eqn:Q; (apply Z.ltb_lt in Q || apply Z.ltb_ge in Q); apply spfx_spec in E.
  - replace (Z.to_nat (- limit - 1)) with (Z.abs_nat limit - 1)%nat in E by lia. exact E.
  - replace (Z.to_nat (limit - 1)) with (Z.abs_nat limit - 1)%nat in E by lia. exact E.
Qed.
End Walk.

(** ** Difference quotients (C22) *)
Section Dy.
Variable c : crv xq (option xq).
Lemma dy_quotient x (fw : bool) ms lim x1 y1 y (p q u v : Qc) :
  (if fw then c_next c x (resolve_min_step (c_ms c) ms) lim else c_prev c x (resolve_min_step (c_ms c) ms) lim) = Ok (Some x1) ->
  c_y c x1 = Ok (Some y1) -> c_y c x = Ok (Some y) -> x = Fin p -> x1 = Fin q -> y = Fin u -> y1 = Fin v -> p <> q ->
  d_y c x fw ms lim = Ok (Some (Fin ((v - u) / (q - p))%Qc)).
Proof.
  intros N Y1 Y0 -> -> -> -> H. unfold d_y. rewrite N. cbn [rbind]. rewrite Y1. cbn [rbind]. rewrite Y0. cbn [rbind n_eqb XQ xq_eqb].
  destruct (Qceqb q p) eqn:E; [apply Qceqb_true in E; congruence|].
  assert (D : n_div (n_sub (Fin v) (Fin u)) (n_sub (Fin q) (Fin p)) = Ok (Fin ((v - u) / (q - p))%Qc)).
  { cbn. destruct (Qceqb (q - p) 0) eqn:Z; [|reflexivity].
    exfalso. apply Qceqb_true in Z. apply H. symmetry. transitivity (q - p + p)%Qc; [ring|rewrite Z; ring]. }
  rewrite D. reflexivity.
Qed.
Lemma dy_none x fw ms lim :
  d_y c x fw ms lim = Ok None <->
  exists x1, (if fw then c_next c x (resolve_min_step (c_ms c) ms) lim else c_prev c x (resolve_min_step (c_ms c) ms) lim) = Ok x1 /\
    match x1 with
    | None => True
    | Some x1 => c_y c x1 = Ok None \/ (exists y1, c_y c x1 = Ok (Some y1)) /\ c_y c x = Ok None
    end.
Proof.
  unfold d_y. cbv zeta. destruct (if fw then c_next _ _ _ _ else c_prev _ _ _ _) as [[x1|]|e]; cbn [rbind].
  - destruct (c_y c x1) as [[y1|]|e1] eqn:Y1; cbn [rbind].
    + destruct (c_y c x) as [[y|]|e0] eqn:Y0; cbn [rbind].
      * split.
        -- destruct (n_eqb x1 x); [discriminate|]. destruct (n_div _ _); discriminate.
        -- intros [x' [E K]]. injection E as <-. destruct K as [K|[_ K]]; congruence.
      * split; auto. intros _. exists (Some x1). split; auto. right. eauto.
      * split; [discriminate|]. intros [x' [E K]]. injection E as <-. destruct K as [K|[_ K]]; congruence.
    + split; auto. intros _. exists (Some x1). auto.
    + split; [discriminate|]. intros [x' [E K]]. injection E as <-. destruct K as [K|[[y K] _]]; congruence.
  - split; auto. intros _. exists None. auto.
  - split; [discriminate|]. intros [x' [E _]]. discriminate.
Qed.
(** what any numeric answer is: the quotient, or an infinity when x1 = x *)
Lemma dy_some x (fw : bool) ms lim d (p : Qc) : x = Fin p ->
  (forall z v, c_y c z = Ok (Some v) -> exists q, v = Fin q) ->
  (forall x1, (if fw then c_next c x (resolve_min_step (c_ms c) ms) lim else c_prev c x (resolve_min_step (c_ms c) ms) lim) = Ok (Some x1) -> exists q, x1 = Fin q /\ q <> p) ->
  d_y c x fw ms lim = Ok (Some d) ->
  exists q u v, (if fw then c_next c x (resolve_min_step (c_ms c) ms) lim else c_prev c x (resolve_min_step (c_ms c) ms) lim) = Ok (Some (Fin q)) /\
    c_y c (Fin q) = Ok (Some (Fin v)) /\ c_y c x = Ok (Some (Fin u)) /\ q <> p /\ d = Fin ((v - u) / (q - p))%Qc.
Proof.
  intros -> FY FX E. pose proof E as E'. unfold d_y in E. cbv zeta in E.
  destruct (if fw then c_next _ _ _ _ else c_prev _ _ _ _) as [[x1|]|e] eqn:N; cbn [rbind] in E; try discriminate.
  destruct (FX x1 eq_refl) as [q [-> Hq]].
  destruct (c_y c (Fin q)) as [[y1|]|e1] eqn:Y1; cbn [rbind] in E; try discriminate.
  destruct (c_y c (Fin p)) as [[y|]|e0] eqn:Y0; cbn [rbind] in E; try discriminate.
  destruct (FY _ _ Y1) as [v ->]. destruct (FY _ _ Y0) as [u ->]. exists q, u, v. repeat split; auto.
  rewrite (dy_quotient (Fin p) fw ms lim (Fin q) (Fin v) (Fin u) p q u v) in E'; auto. now injection E'.
Qed.
End Dy.

(** ** The segment slopes of a Points curve *)
Section PointsDy.
Implicit Type s : pts xq (option xq).

Lemma asc_app l1 (x : xq) v (l2 : list (xq * option xq)) y w : ascending (l1 ++ (x, v) :: l2) -> In (y, w) l2 -> lt_x x y.
Proof.
  intros [_ S] I. induction l1 as [|z l1 IH]; cbn in S.
  - inversion S; subst. exact (proj1 (Forall_forall _ _) H2 (y, w) I).
  - inversion S; subst. auto.
Qed.
Lemma asc_app_l l1 (x : xq) v (l2 : list (xq * option xq)) y w : ascending (l1 ++ (x, v) :: l2) -> In (y, w) l1 -> lt_x y x.
Proof.
  intros [_ S] I. induction l1 as [|z l1 IH]; cbn in S; [destruct I|]. inversion S; subst.
  destruct I as [-> | I]; auto. exact (proj1 (Forall_forall _ _) H2 (x, v) (in_elt _ _ _)).
Qed.
Lemma history_asc s : honest_history s -> ascending (p_pts s).
Proof. intros H. apply (honest_history_good s H). Qed.

Lemma least_next s l1 a va b vb l2 q m y : ascending (p_pts s) -> p_pts s = l1 ++ (Fin a, va) :: (Fin b, vb) :: l2 ->
  (a <= q)%Qc -> (0 < m)%Qc -> (q + m <= b)%Qc -> least_from (p_pts s) (Fin (q + m)) y -> y = Some (Fin b).
Proof.
  intros A Hp L1 Hm L2 H. assert (I : In (Fin b, vb) (p_pts s)) by (rewrite Hp; apply in_or_app; right; right; left; reflexivity).
  assert (LB : le_x (Fin (q + m)) (Fin b)) by (now apply Qcleb_true).
  destruct y as [y|]; [|now elim (H _ _ I)]. destruct H as [[v Iy] [L3 L4]]. f_equal.
  specialize (L4 _ _ I LB). rewrite Hp in Iy, A. apply in_app_or in Iy. destruct Iy as [Iy|[Iy|[Iy|Iy]]].
  - pose proof (asc_app_l _ _ _ _ _ _ A Iy) as X. exfalso. unfold lt_x, le_x in *. destruct y as [y| | |]; try discriminate.
    + apply Qcltb_true in X. apply Qcleb_true in L3. qc_lra.
  - injection Iy as <- _. exfalso. apply Qcleb_true in L3. qc_lra.
  - now injection Iy.
  - assert (A' : ascending ((l1 ++ [(Fin a, va)]) ++ (Fin b, vb) :: l2)) by (rewrite <- app_assoc; exact A).
    pose proof (asc_app _ _ _ _ _ _ A' Iy) as X. exfalso. unfold lt_x, le_x in *. destruct y as [y| | |]; try discriminate.
    apply Qcltb_true in X. apply Qcleb_true in L4. qc_lra.
Qed.
Lemma greatest_prev s l1 a va b vb l2 q m y : ascending (p_pts s) -> p_pts s = l1 ++ (Fin a, va) :: (Fin b, vb) :: l2 ->
  (q <= b)%Qc -> (0 < m)%Qc -> (a <= q - m)%Qc -> greatest_upto (p_pts s) (Fin (q - m)) y -> y = Some (Fin a).
Proof.
  intros A Hp L1 Hm L2 H. assert (I : In (Fin a, va) (p_pts s)) by (rewrite Hp; apply in_elt).
  assert (LB : le_x (Fin a) (Fin (q - m))) by (now apply Qcleb_true).
  destruct y as [y|]; [|now elim (H _ _ I)]. destruct H as [[v Iy] [L3 L4]]. f_equal.
  specialize (L4 _ _ I LB). rewrite Hp in Iy, A. apply in_app_or in Iy. destruct Iy as [Iy|[Iy|[Iy|Iy]]].
  - pose proof (asc_app_l _ _ _ _ _ _ A Iy) as X. exfalso. unfold lt_x, le_x in *. destruct y as [y| | |]; try discriminate.
    apply Qcltb_true in X. apply Qcleb_true in L4. qc_lra.
  - now injection Iy.
  - injection Iy as <- _. exfalso. apply Qcleb_true in L3. qc_lra.
  - assert (A' : ascending ((l1 ++ [(Fin a, va)]) ++ (Fin b, vb) :: l2)) by (rewrite <- app_assoc; exact A).
    pose proof (asc_app _ _ _ _ _ _ A' Iy) as X. exfalso. unfold lt_x, le_x in *. destruct y as [y| | |]; try discriminate.
    apply Qcltb_true in X. apply Qcleb_true in L3. qc_lra.
Qed.

Lemma y_on_segment s l1 a u b v l2 q : honest_history s ->
  p_pts s = l1 ++ (Fin a, Some (Fin u)) :: (Fin b, Some (Fin v)) :: l2 -> (a <= q)%Qc -> (q <= b)%Qc ->
  p_interp s = ILinear \/ q = a \/ q = b ->
  p_y s (Fin q) = Ok (Some (Fin (u + (v - u) * ((q - a) / (b - a)))%Qc)).
Proof.
  intros H Hp L1 L2 HI.
  assert (AB : (a < b)%Qc).
  { pose proof (history_asc s H) as A. rewrite Hp in A. pose proof (asc_app _ _ _ _ (Fin b) (Some (Fin v)) A (or_introl eq_refl)) as X. now apply Qcltb_true. }
  assert (NZ : (b - a)%Qc <> 0%Qc) by (intros E; qc_lra).
  assert (KN : forall z w, In (Fin z, w) (p_pts s) -> p_y s (Fin z) = Ok w).
  { intros z w I. destruct (top_y s z H (fun _ => lerp_total_num)) as [r [E [_ U]]]. rewrite E. f_equal. symmetry. apply U. now apply val_knot. }
  destruct (Qc_eq_dec q a) as [->|Na].
  { rewrite (KN a (Some (Fin u))) by (rewrite Hp; apply in_elt). do 3 f_equal. unfold Qcdiv. ring. }
  destruct (Qc_eq_dec q b) as [->|Nb].
  { rewrite (KN b (Some (Fin v))) by (rewrite Hp; apply in_or_app; right; right; left; reflexivity). do 3 f_equal. field. exact NZ. }
  destruct HI as [HI|[HI|HI]]; try congruence.
  assert (L1' : (a < q)%Qc) by (apply Qcle_lt_or_eq in L1; destruct L1; auto; congruence).
  assert (L2' : (q < b)%Qc) by (apply Qcle_lt_or_eq in L2; destruct L2; auto; congruence).
  destruct (top_linear s l1 a _ b _ l2 q H HI Hp L1' L2') as [X _]. now apply X.
Qed.

Lemma dy_points_forward s l1 a u b v l2 q m lim : honest_history s ->
  p_pts s = l1 ++ (Fin a, Some (Fin u)) :: (Fin b, Some (Fin v)) :: l2 ->
  (a <= q)%Qc -> (0 < m)%Qc -> (q + m <= b)%Qc -> p_interp s = ILinear \/ q = a ->
  d_y (p_crv s) (Fin q) true (Some (Fin m)) lim = Ok (Some (Fin ((v - u) / (b - a))%Qc)).
Proof.
  intros H Hp L1 Hm L2 HI.
  assert (QB : (q < b)%Qc) by qc_lra. assert (AB : (a < b)%Qc) by qc_lra.
  destruct (top_next s (Fin q) m lim H) as [y [E Hy]]; [discriminate|].
  assert (y = Some (Fin b)) by (eapply least_next; eauto using history_asc). subst y.
  assert (N1 : (b - a)%Qc <> 0%Qc) by (intros X; qc_lra). assert (N2 : (b - q)%Qc <> 0%Qc) by (intros X; qc_lra).
  rewrite (dy_quotient (p_crv s) (Fin q) true (Some (Fin m)) lim (Fin b) (Fin (u + (v - u) * ((b - a) / (b - a)))%Qc) (Fin (u + (v - u) * ((q - a) / (b - a)))%Qc) q b (u + (v - u) * ((q - a) / (b - a)))%Qc (u + (v - u) * ((b - a) / (b - a)))%Qc); try reflexivity.
  - do 2 f_equal. f_equal. field. auto.
  - exact E.
  - apply (y_on_segment s l1 a u b v l2 b); auto; try apply Qcle_refl; now apply Qclt_le_weak.
  - apply (y_on_segment s l1 a u b v l2 q); auto; [now apply Qclt_le_weak|tauto].
  - now apply Qclt_neq.
Qed.
Lemma dy_points_backward s l1 a u b v l2 q m lim : honest_history s ->
  p_pts s = l1 ++ (Fin a, Some (Fin u)) :: (Fin b, Some (Fin v)) :: l2 ->
  (q <= b)%Qc -> (0 < m)%Qc -> (a <= q - m)%Qc -> p_interp s = ILinear \/ q = b ->
  d_y (p_crv s) (Fin q) false (Some (Fin m)) lim = Ok (Some (Fin ((v - u) / (b - a))%Qc)).
Proof.
  intros H Hp L1 Hm L2 HI.
  assert (QB : (a < q)%Qc) by qc_lra. assert (AB : (a < b)%Qc) by qc_lra.
  destruct (top_previous s (Fin q) m lim H) as [y [E Hy]]; [discriminate|].
  assert (y = Some (Fin a)) by (eapply greatest_prev; eauto using history_asc). subst y.
  assert (N1 : (b - a)%Qc <> 0%Qc) by (intros X; qc_lra). assert (N2 : (a - q)%Qc <> 0%Qc) by (intros X; qc_lra).
  rewrite (dy_quotient (p_crv s) (Fin q) false (Some (Fin m)) lim (Fin a) (Fin (u + (v - u) * ((a - a) / (b - a)))%Qc) (Fin (u + (v - u) * ((q - a) / (b - a)))%Qc) q a (u + (v - u) * ((q - a) / (b - a)))%Qc (u + (v - u) * ((a - a) / (b - a)))%Qc); try reflexivity.
  - do 2 f_equal. f_equal. field. auto.
  - exact E.
  - apply (y_on_segment s l1 a u b v l2 a); auto; try apply Qcle_refl; now apply Qclt_le_weak.
  - apply (y_on_segment s l1 a u b v l2 q); auto; [now apply Qclt_le_weak|tauto].
  - intros X. apply (Qclt_neq _ _ QB). auto.
Qed.
End PointsDy.

(** ** Ranges (C23) *)
Definition numbers (l : list (xq * option xq)) (vs : list xq) : Prop := map snd l = map Some vs.

Lemma range_loop_spec : forall (l : list (xq * option xq)) vs lo hi, numbers l vs -> notnan lo -> notnan hi -> Forall notnan vs ->
  exists lo' hi', range_loop (Some lo) (Some hi) l = Ok (Some lo', Some hi') /\
    (lo' = lo \/ In lo' vs) /\ (hi' = hi \/ In hi' vs) /\ notnan lo' /\ notnan hi' /\
    le_x lo' lo /\ le_x hi hi' /\ Forall (fun v => le_x lo' v /\ le_x v hi') vs.
Proof.
  induction l as [|[x v] l IH]; intros vs lo hi H Nl Nh F.
  - destruct vs; [|discriminate]. exists lo, hi. cbn. repeat split; auto; apply le_x_emb; auto; lra.
  - destruct vs as [|w vs]; [discriminate|]. injection H as -> H. inversion F; subst. cbn [range_loop rbind].
    unfold n_gtb. cbn [n_ltb XQ].
    destruct (IH vs (if xq_ltb w lo then w else lo) (if xq_ltb hi w then w else hi) H) as [lo' [hi' [E [I1 [I2 [N1 [N2 [L1 [L2 G]]]]]]]]]; auto.
    { destruct (xq_ltb w lo); auto. } { destruct (xq_ltb hi w); auto. }
    exists lo', hi'. split.
    { rewrite <- E. destruct (xq_ltb w lo), (xq_ltb hi w); reflexivity. }
    assert (A1 : le_x lo' lo /\ le_x lo' w).
    { destruct (xq_ltb_spec w lo H2 Nl); rewrite !le_x_emb in * by auto; split; lra. }
    assert (A2 : le_x hi hi' /\ le_x w hi').
    { destruct (xq_ltb_spec hi w Nh H2); rewrite !le_x_emb in * by auto; split; lra. }
    repeat split; try tauto.
    + destruct I1 as [-> | I1]; [destruct (xq_ltb w lo)|]; cbn; auto.
    + destruct I2 as [-> | I2]; [destruct (xq_ltb hi w)|]; cbn; auto.
    + constructor; auto. tauto.
Qed.
Lemma range_spec (l : list (xq * option xq)) vs : numbers l vs -> Forall notnan vs ->
  match vs with
  | [] => range_of_points l = Ok i_empty
  | _ => exists lo hi, range_of_points l = Ok (i_closed lo hi) /\ In lo vs /\ In hi vs /\ Forall (fun v => le_x lo v /\ le_x v hi) vs
  end.
Proof.
  intros H F. destruct l as [|[x v] l]; destruct vs as [|w vs]; try discriminate; [reflexivity|].
  injection H as -> H. inversion F; subst. unfold range_of_points. cbn [range_loop rbind].
  destruct (range_loop_spec l vs w w H H2 H2 H3) as [lo [hi [E [I1 [I2 [N1 [N2 [L1 [L2 G]]]]]]]]].
  rewrite E. cbn [rbind]. exists lo, hi. repeat split; auto.
  - destruct I1 as [-> | I1]; cbn; auto.
  - destruct I2 as [-> | I2]; cbn; auto.
Qed.

(** ** The optimiser loops (C24) *)
Section Opt.
Variable c : crv xq (option xq).
Variables (ms step : option xq).

(** one move of the search *)
Definition move (x : xq) (p : option xq) : Prop :=
  match step with
  | Some h => p = Some (xq_add x h) \/ p = Some (xq_sub x h)
  | None => c_next c x ms None = Ok p \/ c_prev c x ms None = Ok p
  end.
Inductive moves : nat -> xq -> xq -> Prop :=
| mv_0 x : moves 0 x x
| mv_S k x z r : move x (Some z) -> moves k z r -> moves (S k) x r.

Definition slope (fw : bool) (x : xq) := d_y c x fw (Some MIN_STEP) None.

(** why the search stopped at [r] *)
Inductive stopped (better : xq -> xq -> Prop) (n : nat) (x r : xq) : Prop :=
| st_opt k d0 d1 : (k < n)%nat -> moves k x r -> slope false r = Ok (Some d0) -> slope true r = Ok (Some d1) ->
    better d0 n_zero -> better n_zero d1 -> stopped better n x r
| st_flat k : (k < n)%nat -> moves k x r -> slope false r = Ok None -> slope true r = Ok None -> stopped better n x r
| st_edge k z : (S k < n)%nat -> moves k x r -> move r (Some z) -> c_y c z = Ok None -> stopped better n x r
| st_limit : moves n x r -> stopped better n x r.

Lemma stopped_step better n x z r : move x (Some z) -> stopped better n z r -> stopped better (S n) x r.
Proof.
  intros M [k d0 d1 K P E0 E1 B0 B1|k K P E0 E1|k w K P M' Y|P].
  - apply st_opt with (k := S k) (d0 := d0) (d1 := d1); auto; [lia|econstructor; eauto].
  - apply st_flat with (k := S k); auto; [lia|econstructor; eauto].
  - apply st_edge with (k := S k) (z := w); auto; [lia|econstructor; eauto].
  - apply st_limit. econstructor; eauto.
Qed.

Lemma mul_neg_cases d0 d1 : xq_ltb (xq_mul d0 d1) n_zero = true -> xq_leb d0 n_zero = true -> xq_leb n_zero d1 = true ->
  lt_x d0 n_zero /\ lt_x n_zero d1.
Proof.
  unfold lt_x. destruct d0 as [p| | |], d1 as [q| | |]; try discriminate; cbn [xq_mul n_zero XQ xq_leb xq_ltb]; intros A B C; auto.
  - apply Qcltb_true in A. apply Qcleb_true in B, C. split; apply Qcltb_true; qc_nra.
  - unfold xq_mulinf, xq_sgn in A. destruct (0 ?= p)%Qc eqn:Z; try discriminate. split; auto. apply Qcltb_true. now apply Qcgt_alt in Z.
  - unfold xq_mulinf, xq_sgn in A. destruct (0 ?= q)%Qc eqn:Z; try discriminate. split; auto. apply Qcltb_true. now apply Qclt_alt in Z.
Qed.
End Opt.
