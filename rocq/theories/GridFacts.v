(** Points on a binary64 grid of dyadic numbers: every stored position is found exactly. *)
From Coq Require Import List ZArith Reals Lia Lra Bool SpecFloat.
From Flocq Require Import Core BinarySingleNaN.
From Verif Require Import Base Num Interval Curve Points B64Facts.
Import ListNotations.
Open Scope Z_scope.

(** The list of points with values [vs] at (a + i h) 2^e, in binary64. *)
Fixpoint grid {V} (a h e : Z) (vs : list V) : list (b64 * V) :=
  match vs with [] => [] | v :: r => (fnum a e, v) :: grid (a + h) h e r end.

(** The grid fits the 53 bits of a double: so do its ends and its length. *)
Definition grid_fits (a h e : Z) (n : nat) : Prop :=
  0 < h /\ -1074 <= e <= 970 /\ Z.abs a <= 2 ^ 53 /\
  Z.abs (a + Z.of_nat (n - 1) * h) <= 2 ^ 53 /\ Z.of_nat (n - 1) * h <= 2 ^ 53.

Lemma grid_length {V} a h e (vs : list V) : length (grid a h e vs) = length vs.
Proof. revert a. induction vs as [|v r IH]; intros a; cbn; [reflexivity|]. rewrite IH. reflexivity. Qed.
Lemma grid_nth {V} h e (vs : list V) i : forall a, nth_error (grid a h e vs) i = option_map (fun v => (fnum (a + Z.of_nat i * h) e, v)) (nth_error vs i).
Proof.
  revert i. induction vs as [|v r IH]; intros i a; [destruct i; reflexivity|]. destruct i as [|i]; cbn [grid nth_error].
  - cbn [option_map]. do 3 f_equal. lia.
  - rewrite IH. destruct (nth_error r i); cbn [option_map]; [|reflexivity]. do 3 f_equal. lia.
Qed.
Lemma grid_app {V} h e (vs ws : list V) : forall a, grid a h e (vs ++ ws) = grid a h e vs ++ grid (a + Z.of_nat (length vs) * h) h e ws.
Proof.
  induction vs as [|v r IH]; intros a; cbn [app grid length]; [f_equal; lia|]. rewrite IH. cbn [app]. do 3 f_equal. lia.
Qed.
Lemma grid_set {V} h e (vs : list V) w : forall i a, list_set (grid a h e vs) i (fnum (a + Z.of_nat i * h) e, w) = grid a h e (list_set vs i w).
Proof.
  induction vs as [|v r IH]; intros i a; [reflexivity|]. destruct i as [|i]; cbn [grid list_set].
  - do 2 f_equal. f_equal. lia.
  - rewrite <- IH. do 3 f_equal. f_equal. lia.
Qed.
Lemma set_length {A} (l : list A) i w : length (list_set l i w) = length l.
Proof. revert i. induction l as [|v r IH]; intros [|i]; cbn; auto. Qed.
Lemma set_nth {A} (l : list A) i w j : (i < length l)%nat -> nth_error (list_set l i w) j = if Nat.eqb i j then Some w else nth_error l j.
Proof.
  revert i j. induction l as [|v r IH]; intros i j L; [cbn in L; lia|]. destruct i as [|i], j as [|j]; cbn [list_set nth_error Nat.eqb]; try reflexivity.
  apply IH. cbn in L. lia.
Qed.
Lemma py_at {A} (l : list A) i a : nth_error l i = Some a -> py_nth l (Z.of_nat i) = Ok a.
Proof.
  intros E. assert (i < length l)%nat by (apply nth_error_Some; congruence). unfold py_nth.
  destruct (Z.ltb_spec (Z.of_nat i) 0); [lia|]. destruct (Z.ltb_spec (Z.of_nat i) 0); [lia|].
  destruct (Z.leb_spec (Z.of_nat (length l)) (Z.of_nat i)); [lia|]. cbn. rewrite Nat2Z.id, E. reflexivity.
Qed.
Lemma py_at0 {A} (l : list A) a : nth_error l 0 = Some a -> py_nth l 0 = Ok a. Proof. apply (py_at l 0). Qed.
Lemma py_at1 {A} (l : list A) a : nth_error l 1 = Some a -> py_nth l 1 = Ok a. Proof. apply (py_at l 1). Qed.
Lemma py_at_last {A} (l : list A) i a : S i = length l -> nth_error l i = Some a -> py_nth l (-1) = Ok a.
Proof.
  intros L E. unfold py_nth. rewrite <- L. cbn [Z.ltb Z.compare].
  destruct (Z.ltb_spec (-1 + Z.of_nat (S i)) 0); [lia|]. destruct (Z.leb_spec (Z.of_nat (S i)) (-1 + Z.of_nat (S i))); [lia|]. cbn [orb].
  replace (Z.to_nat (-1 + Z.of_nat (S i))) with i by lia. rewrite E. reflexivity.
Qed.
Lemma last_at {A} (l : list A) i : S i = length l -> last_opt l = nth_error l i.
Proof.
  intros L. destruct (exists_last (l := l)) as (r & z & ->); [intros ->; discriminate|]. unfold last_opt. rewrite rev_app_distr. cbn.
  rewrite app_length in L. cbn in L. rewrite nth_error_app2 by lia. replace (i - length r)%nat with 0%nat by lia. reflexivity.
Qed.

(** the update protocol around one non-empty interval *)
Definition sound_ival (d : ival b64) : Prop :=
  i_is_empty d = false /\ n_eqb (i_start d) (i_start d) = true /\ n_eqb (i_end d) (i_end d) = true.
Lemma bracket dom d : sound_ival d ->
  begin_update (mkU i_empty i_empty dom) d = (mkU d i_empty dom, Some d) /\
  end_update (mkU d i_empty dom) d = (mkU i_empty i_empty None, Some d).
Proof.
  intros (E & S1 & S2).
  assert (K : i_superset i_empty d = false) by (unfold i_superset; rewrite E; reflexivity).
  assert (U : i_union2 i_empty d = d) by (unfold i_union2; rewrite E; reflexivity).
  assert (P : i_superset d d = true).
  { unfold i_superset. rewrite E, S1, S2. cbn [negb orb andb]. destruct (i_so d), (i_eo d); cbn [negb orb andb]; rewrite !orb_true_r; reflexivity. }
  unfold begin_update, end_update. cbn [u_begin u_end u_dom]. rewrite E, K, U, P. split; reflexivity.
Qed.
Lemma sound_point m e so eo k : fits m e -> fits k e -> m < k \/ (m = k /\ so = false /\ eo = false) -> sound_ival (mkI (fnum m e) (fnum k e) so eo).
Proof.
  intros M K C. unfold sound_ival, i_is_empty. cbn [i_start i_end i_so i_eo n_eqb n_ltb n_gtb B64]. rewrite !fnum_ltb, !fnum_eqb by assumption.
  rewrite !Z.eqb_refl. repeat split. destruct (Z.ltb_spec k m); [lia|]. destruct (Z.eqb_spec m k) as [->|]; [|reflexivity].
  destruct C as [C|(_ & -> & ->)]; [lia|reflexivity].
Qed.

Section Grid.
Context {V : Type} {W : Val b64 V}.
Variables a h e : Z.

Definition at_i (i : nat) : Z := a + Z.of_nat i * h.
Definition grid_dom (n : nat) : ival b64 :=
  match n with O => i_empty | S m => mkI (fnum a e) (fnum (at_i m) e) false false end.
Definition grid_step (n : nat) : option b64 := if Nat.ltb n 2 then None else Some (fnum h e).
Definition on_grid (vs : list V) (s : pts b64 V) : Prop :=
  p_pts s = grid a h e vs /\ p_int s = grid_step (length vs) /\ p_eq s = true /\
  exists dom, p_upd s = mkU i_empty i_empty dom /\ p_dom s = grid_dom (length vs).

Lemma dom_grid (vs : list V) : pts_domain (grid a h e vs) = grid_dom (length vs).
Proof.
  destruct vs as [|v r]; [reflexivity|]. unfold pts_domain. rewrite (last_at _ (length r)) by (rewrite grid_length; reflexivity).
  rewrite grid_nth. destruct (nth_error (v :: r) (length r)) as [z|] eqn:E.
  - reflexivity.
  - apply nth_error_None in E. cbn in E. lia.
Qed.
Lemma fits_at n i : grid_fits a h e n -> (i < n)%nat -> fits (at_i i) e.
Proof. intros (P & E & A1 & A2 & _) L. unfold fits, at_i. split; [nia|exact E]. Qed.
Lemma fits_span n i j : grid_fits a h e n -> (i < n)%nat -> (j <= i)%nat -> fits ((Z.of_nat i - Z.of_nat j) * h) e.
Proof. intros (P & E & _ & _ & A3) L L2. unfold fits. split; [nia|exact E]. Qed.
Lemma fits_count n i : grid_fits a h e n -> (i < n)%nat -> fits (Z.of_nat i) 0.
Proof. intros (P & E & _ & _ & A3) L. unfold fits. split; [nia|lia]. Qed.
Lemma fits_h n : grid_fits a h e n -> (2 <= n)%nat -> fits h e.
Proof. intros (P & E & _ & _ & A3) L. unfold fits. split; [nia|exact E]. Qed.
Lemma fits_shorter n m : grid_fits a h e n -> (m <= n)%nat -> grid_fits a h e m.
Proof. intros (P & E & A1 & A2 & A3) L. unfold grid_fits. repeat split; try assumption; nia. Qed.
Lemma nonzero_div x m f : fits m f -> 0 < m -> n_div x (fnum m f) = Ok (SFdiv 53 1024 x (fnum m f)).
Proof.
  intros F P. destruct (bnum_spec m f F) as (R1 & F1 & _). rewrite fnum_bnum. cbn [n_div B64].
  destruct (bnum m f) as [s|s| |s q x0 B]; cbn [B2SF]; try reflexivity. exfalso. cbn in R1. symmetry in R1. apply dy_0 in R1. lia.
Qed.
Lemma sub_at n i j : grid_fits a h e n -> (i < n)%nat -> (j <= i)%nat ->
  n_sub (fnum (at_i i) e) (fnum (at_i j) e) = fnum ((Z.of_nat i - Z.of_nat j) * h) e.
Proof.
  intros G L L2. cbn [n_sub B64]. rewrite fnum_sub; [f_equal; unfold at_i; lia|eapply fits_at; eassumption|eapply fits_at; [eassumption|lia]|].
  replace (at_i i - at_i j) with ((Z.of_nat i - Z.of_nat j) * h) by (unfold at_i; lia). eapply fits_span; eassumption.
Qed.
Lemma fnum_at0 : fnum a e = fnum (at_i 0) e. Proof. unfold at_i. f_equal. lia. Qed.

Lemma index_at n i vs s : grid_fits a h e n -> length vs = n -> (i < n)%nat -> on_grid vs s -> x_index s (fnum (at_i i) e) = Ok (fnum (Z.of_nat i) 0).
Proof.
  intros G LV L (P1 & P2 & P3 & _). unfold x_index, p_uniform. rewrite P3. replace (if p_force s then true else true) with true by (destruct (p_force s); reflexivity).
  rewrite P2. unfold grid_step. destruct (Nat.ltb_spec (length vs) 2) as [Q|Q].
  - assert (i = 0%nat) as -> by lia. reflexivity.
  - rewrite P1. assert (py_nth (grid a h e vs) 0 = Ok (fnum (at_i 0) e, nth 0 vs v_none)) as ->.
    { apply py_at0. rewrite grid_nth. destruct vs; [cbn in Q; lia|]. reflexivity. }
    cbn [rbind fst]. rewrite (sub_at n) by (try assumption; lia).
    rewrite nonzero_div by (solve [apply G|eapply fits_h; [eassumption|lia]]). f_equal.
    apply fnum_div.
    + eapply fits_span; [eassumption|lia|lia].
    + eapply fits_h; [eassumption|lia].
    + eapply fits_count; eassumption.
    + apply G.
    + destruct G as (G & _). nia.
    + replace ((Z.of_nat i - Z.of_nat 0) * h) with (Z.of_nat i * h) by lia.
      assert (H0 : dy h e <> 0%R) by (intros K; apply dy_0 in K; destruct G; lia).
      replace (dy (Z.of_nat i * h) e) with (dy (Z.of_nat i) 0 * dy h e)%R by (rewrite dy_mul; f_equal).
      field. exact H0.
Qed.
Lemma in_dom n i vs s : grid_fits a h e n -> length vs = n -> (i < n)%nat -> on_grid vs s -> i_contains (p_dom s) (fnum (at_i i) e) = true.
Proof.
  intros G LV L (_ & _ & _ & dom & _ & ->). rewrite LV. destruct n as [|m]; [lia|]. cbn [grid_dom]. rewrite fnum_at0.
  pose proof (fits_at _ i G L) as F1. pose proof (fits_at _ m G ltac:(lia)) as F2. pose proof (fits_at _ 0 G ltac:(lia)) as F0.
  unfold i_contains, i_contains_gen, i_is_empty, above_start, below_end. cbn [i_start i_end i_so i_eo n_ltb n_gtb n_eqb B64].
  rewrite !fnum_ltb, !fnum_eqb by assumption. destruct G as (G & _). unfold at_i.
  destruct (Z.ltb_spec (a + Z.of_nat m * h) (a + Z.of_nat 0 * h)); [nia|]. rewrite andb_false_r. cbn [orb negb andb].
  destruct (Z.ltb_spec (a + Z.of_nat 0 * h) (a + Z.of_nat i * h)), (Z.eqb_spec (a + Z.of_nat 0 * h) (a + Z.of_nat i * h)),
    (Z.ltb_spec (a + Z.of_nat i * h) (a + Z.of_nat m * h)), (Z.eqb_spec (a + Z.of_nat i * h) (a + Z.of_nat m * h)); cbn; try reflexivity; nia.
Qed.

Lemma grid_y vs s i v : grid_fits a h e (length vs) -> on_grid vs s -> nth_error vs i = Some v -> p_y s (fnum (at_i i) e) = Ok v.
Proof.
  intros G O E. assert (L : (i < length vs)%nat) by (apply nth_error_Some; congruence).
  unfold p_y. rewrite (in_dom _ i vs s G eq_refl L O). cbn [negb]. rewrite (index_at _ i vs s G eq_refl L O). cbn [rbind].
  pose proof (fits_count _ i G L) as F. rewrite whole_mod1, whole_trunc by (try assumption; lia). cbn [rbind].
  change (n_eqb (S754_zero false) n_zero) with true. cbn [rbind]. destruct O as (-> & _).
  rewrite (py_at _ i (fnum (at_i i) e, v)); [reflexivity|]. rewrite grid_nth, E. reflexivity.
Qed.

(** ** the operations *)
Lemma span_grid (vs : list V) : grid_fits a h e (length vs) -> span_interval (grid a h e vs) = Ok (grid_step (length vs)).
Proof.
  intros G. destruct vs as [|v [|w r]]; try reflexivity. set (vs := v :: w :: r) in *.
  assert (L : length vs = S (S (length r))) by reflexivity. set (m := S (length r)) in *.
  unfold span_interval. change (grid a h e vs) with ((fnum a e, v) :: (fnum (a + h) e, w) :: grid (a + h + h) h e r) at 1. cbn iota.
  rewrite (last_at _ m) by (rewrite grid_length; exact L). rewrite grid_nth.
  destruct (nth_error vs m) as [z|] eqn:E; [|apply nth_error_None in E; lia]. cbn [option_map fst].
  rewrite grid_length, L. fold (at_i m). rewrite fnum_at0. rewrite (sub_at (length vs)) by (try assumption; lia).
  replace (Z.of_nat (S m) - 1) with (Z.of_nat m) by lia. change (n_ofZ (Z.of_nat m)) with (fnum (Z.of_nat m) 0).
  pose proof (fits_count _ m G ltac:(lia)) as FM. rewrite nonzero_div by (try assumption; lia). cbn [rbind]. change (grid_step (S m)) with (Some (fnum h e)). do 2 f_equal.
  apply fnum_div.
  - eapply fits_span; [eassumption|lia|lia].
  - exact FM.
  - eapply fits_h; [eassumption|lia].
  - lia.
  - destruct G; nia.
  - assert (H0 : dy (Z.of_nat m) 0 <> 0%R) by (intros K; apply dy_0 in K; lia).
    replace ((Z.of_nat m - Z.of_nat 0) * h) with (Z.of_nat m * h) by lia.
    replace (dy (Z.of_nat m * h) e) with (dy (Z.of_nat m) 0 * dy h e)%R by (rewrite dy_mul; f_equal). field. exact H0.
Qed.
(** the last new position is exactly start + step * count *)
Lemma reach n i k : grid_fits a h e n -> (i + k < n)%nat -> (1 <= k)%nat ->
  n_eqb (fnum (at_i (i + k)) e) (n_add (fnum (at_i i) e) (n_mul (fnum h e) (n_ofZ (Z.of_nat k)))) = true.
Proof.
  intros G L K. change (n_ofZ (Z.of_nat k)) with (fnum (Z.of_nat k) 0). cbn [n_mul n_add n_eqb B64].
  assert (FK : fits (h * Z.of_nat k) e) by (pose proof (fits_span n k 0 G ltac:(lia) ltac:(lia)) as F; replace (h * Z.of_nat k) with ((Z.of_nat k - Z.of_nat 0) * h) by lia; exact F).
  rewrite fnum_mul, Z.add_0_r; [|eapply fits_h; [eassumption|lia]|eapply fits_count; [eassumption|lia]|rewrite Z.add_0_r; exact FK|destruct G; lia|lia].
  pose proof (fits_at n (i + k) G ltac:(lia)) as F2. pose proof (fits_at n i G ltac:(lia)) as F1.
  assert (E : at_i i + h * Z.of_nat k = at_i (i + k)) by (unfold at_i; lia).
  rewrite fnum_add; rewrite ?E; try assumption; [|right; destruct G; nia]. rewrite fnum_eqb by assumption. apply Z.eqb_refl.
Qed.
Lemma grid_equal_new (vs : list V) : grid_fits a h e (length vs) -> points_equally_spaced None [] (grid a h e vs) = Ok true.
Proof.
  intros G. destruct vs as [|v [|w r]]; try reflexivity. set (vs := v :: w :: r) in *. set (m := S (length r)).
  assert (L : length vs = S m) by reflexivity. unfold points_equally_spaced. rewrite grid_length. cbn [length Nat.eqb Nat.ltb Nat.add orb negb].
  rewrite L. cbn [Nat.eqb orb Nat.leb m].
  rewrite (py_at0 _ (fnum (at_i 0) e, v)) by (rewrite grid_nth; reflexivity). cbn [rbind fst].
  rewrite (py_at1 _ (fnum (at_i 1) e, w)) by (rewrite grid_nth; reflexivity).
  destruct (Nat.ltb_spec (S m) 2) as [Q|_]; [unfold m in Q; lia|]. cbn [rbind fst].
  destruct (nth_error vs m) as [z|] eqn:E; [|apply nth_error_None in E; lia].
  rewrite (py_at_last _ m (fnum (at_i m) e, z)) by (rewrite ?grid_length, ?grid_nth, ?E; auto). cbn [rbind fst].
  rewrite (sub_at (length vs)) by (try assumption; lia). replace ((Z.of_nat 1 - Z.of_nat 0) * h) with h by lia.
  replace (Z.of_nat (S m) - 1) with (Z.of_nat m) by lia. f_equal. apply (reach (length vs) 0 m G); lia.
Qed.
Lemma grid_equal_more (vs ws : list V) : vs <> [] -> grid_fits a h e (length (vs ++ ws)) ->
  points_equally_spaced (grid_step (length vs)) (grid a h e vs) (grid (at_i (length vs)) h e ws) = Ok true.
Proof.
  intros NV G. destruct ws as [|w r]; [reflexivity|]. set (ws := w :: r) in *. set (m := length r). destruct vs as [|v0 vs0]; [contradiction|].
  set (vs := v0 :: vs0) in *. set (k := length vs0). assert (LV : length vs = S k) by reflexivity. assert (LW : length ws = S m) by reflexivity.
  assert (LA : length (vs ++ ws) = (S k + S m)%nat) by (rewrite app_length; lia).
  unfold points_equally_spaced. rewrite !grid_length, LV, LW. cbn [Nat.eqb orb negb]. destruct (Nat.ltb_spec (S k + S m) 2); [lia|].
  destruct (nth_error vs k) as [z|] eqn:E; [|apply nth_error_None in E; lia].
  destruct (nth_error ws m) as [y|] eqn:E2; [|apply nth_error_None in E2; lia].
  rewrite (py_at_last (grid a h e vs) k (fnum (at_i k) e, z)) by (rewrite ?grid_length, ?grid_nth, ?E; auto). cbn [rbind fst].
  assert (IV : (match grid_step (S k) with
      | Some x => Ok x
      | None => if Nat.eqb k 0 then let! a0 := py_nth (grid (at_i (S k)) h e ws) 0 in Ok (n_sub (fst a0) (fnum (at_i k) e))
                else let! a0 := py_nth (grid (at_i (S k)) h e ws) 1 in let! b := py_nth (grid (at_i (S k)) h e ws) 0 in Ok (n_sub (fst a0) (fst b))
      end) = Ok (fnum h e)).
  { unfold grid_step. destruct (Nat.ltb_spec (S k) 2) as [Q|Q]; [|reflexivity]. assert (k = 0%nat) as -> by lia. cbn [Nat.eqb].
    rewrite (py_at0 _ (fnum (at_i 1) e, w)) by (rewrite grid_nth; cbn [nth_error ws option_map]; do 3 f_equal; lia). cbn [rbind fst].
    rewrite (sub_at (length (vs ++ ws))) by (try assumption; lia). do 2 f_equal. lia. }
  rewrite IV. cbn [rbind].
  rewrite (py_at_last (grid (at_i (S k)) h e ws) m (fnum (at_i (k + S m)) e, y)); [|rewrite grid_length; auto|rewrite grid_nth, E2; cbn [option_map]; do 3 f_equal; unfold at_i; lia].
  cbn [rbind fst]. f_equal. apply (reach (length (vs ++ ws)) k (S m) G); lia.
Qed.

Lemma set_grid (s : pts b64 V) (vs : list V) : p_pts s = [] -> p_int s = None -> p_upd s = mkU i_empty i_empty None \/ p_upd s = mkU i_empty i_empty (Some i_empty) ->
  grid_fits a h e (length vs) ->
  snd (p_set s (grid a h e vs) None) = Ok tt /\ on_grid vs (fst (fst (p_set s (grid a h e vs) None))) /\
  p_interp (fst (fst (p_set s (grid a h e vs) None))) = p_interp s.
Proof.
  intros P1 P2 PU G.
  assert (D : p_dom s = i_empty). { unfold p_dom. destruct PU as [-> | ->]; cbn [u_dom]; [rewrite P1|]; reflexivity. }
  assert (T : p_upd (p_touch s) = mkU i_empty i_empty (Some i_empty)).
  { unfold p_touch, set_upd. cbn [p_upd]. rewrite D. destruct PU as [-> | ->]; reflexivity. }
  assert (DT : p_dom (p_touch s) = i_empty) by (unfold p_dom; rewrite T; reflexivity).
  unfold p_set. destruct vs as [|v r].
  - cbn [grid head_opt]. rewrite DT. unfold p_begin. rewrite T.
    change (begin_update (mkU i_empty i_empty (Some i_empty)) (@i_empty b64 B64)) with (mkU (@i_empty b64 B64) i_empty (Some i_empty), @None (ival b64)).
    cbn iota beta. change (points_equally_spaced _ [] []) with (Ok true). cbn iota beta. cbn [negb]. rewrite andb_false_r.
    unfold p_finish, p_end. cbn -[p_touch i_empty end_update].
    change (end_update (mkU i_empty i_empty (Some i_empty)) (@i_empty b64 B64)) with (mkU (@i_empty b64 B64) i_empty (Some i_empty), @None (ival b64)).
    cbn -[p_touch i_empty]. split; [reflexivity|]. split; [|reflexivity]. repeat split; cbn -[i_empty]. exists (Some i_empty). split; reflexivity.
  - set (vs := v :: r) in *. assert (L : length vs = S (length r)) by reflexivity.
    destruct (nth_error vs (length r)) as [z|] eqn:E; [|apply nth_error_None in E; lia].
    assert (HL : last_opt (grid a h e vs) = Some (fnum (at_i (length r)) e, z)).
    { rewrite (last_at _ (length r)) by (rewrite grid_length; exact L). rewrite grid_nth, E. reflexivity. }
    assert (HH : head_opt (grid a h e vs) = Some (fnum (at_i 0) e, v)) by (cbn [vs grid head_opt]; rewrite fnum_at0; reflexivity).
    rewrite HL, HH, DT. cbn [fst]. pose proof (fits_at _ 0 G ltac:(lia)) as F0. pose proof (fits_at _ (length r) G ltac:(lia)) as FL.
    assert (SI : sound_ival (mkI (fnum (at_i 0) e) (fnum (at_i (length r)) e) false false)).
    { apply sound_point; try assumption. unfold at_i. destruct G as (G & _). destruct (length r) as [|k]; [right|left]; [auto|lia]. }
    set (d := mkI (fnum (at_i 0) e) (fnum (at_i (length r)) e) false false) in *.
    assert (UD : i_union2 i_empty (i_closed (fnum (at_i 0) e) (fnum (at_i (length r)) e)) = d).
    { unfold i_union2. change (i_closed _ _) with d. destruct SI as (-> & _). reflexivity. }
    rewrite UD. destruct (bracket (Some i_empty) d SI) as [B1 B2].
    unfold p_begin. rewrite T, B1.
    replace (p_int (set_upd (p_touch s) (mkU d i_empty (Some i_empty)))) with (@None b64) by (unfold p_touch, set_upd; cbn; congruence).
    rewrite (grid_equal_new vs G). cbn [negb]. rewrite andb_false_r. unfold p_finish. rewrite (span_grid vs G).
    unfold p_end. cbn -[grid i_empty end_update grid_step p_dom on_grid]. rewrite B2. cbn -[grid i_empty end_update grid_step p_dom on_grid].
    split; [reflexivity|]. split; [|reflexivity]. repeat split. exists None. split; [reflexivity|]. apply dom_grid.
Qed.
Lemma touch_grid vs s : on_grid vs s -> p_upd (p_touch s) = mkU i_empty i_empty (Some (grid_dom (length vs))) /\ p_dom (p_touch s) = grid_dom (length vs).
Proof. intros (_ & _ & _ & dom & U & D). unfold p_touch, p_dom at 2, set_upd. cbn [p_upd u_dom]. rewrite D, U. split; reflexivity. Qed.

(** what an append tells the observers *)
Lemma append_events v0 vs0 w r s : let vs := v0 :: vs0 in let ws := w :: r in let d := mkI (fnum (at_i (length vs0)) e) (fnum (at_i (length vs0 + S (length r))) e) true false in
  on_grid vs s -> grid_fits a h e (length (vs ++ ws)) ->
  exists s', p_append_list s (grid (at_i (length vs)) h e ws) = (s', [EvBegin d; EvEnd d], Ok tt) /\ on_grid (vs ++ ws) s' /\ p_interp s' = p_interp s.
Proof.
  intros vs ws d0 O G.
    set (k := length vs0) in *. set (m := length r) in *.
    assert (LV : length vs = S k) by reflexivity. assert (LW : length ws = S m) by reflexivity.
    assert (LA : length (vs ++ ws) = (S k + S m)%nat) by (rewrite app_length; lia).
    pose proof (touch_grid vs s O) as [TU TD]. destruct O as (P1 & P2 & P3 & dom & U & D).
    unfold p_append_list. rewrite P1. change (grid a h e vs) with ((fnum a e, v0) :: grid (a + h) h e vs0) at 1. cbn iota.
    assert (HH : head_opt (grid (at_i (length vs)) h e ws) = Some (fnum (at_i (S k)) e, w)) by reflexivity.
    destruct (nth_error ws m) as [y|] eqn:E2; [|apply nth_error_None in E2; lia].
    destruct (nth_error vs k) as [z|] eqn:E; [|apply nth_error_None in E; lia].
    assert (HL : last_opt (grid (at_i (length vs)) h e ws) = Some (fnum (at_i (k + S m)) e, y)).
    { rewrite (last_at _ m) by (rewrite grid_length; auto). rewrite grid_nth, E2. cbn [option_map]. rewrite LV. do 3 f_equal. unfold at_i. lia. }
    assert (HZ : last_opt (grid a h e vs) = Some (fnum (at_i k) e, z)).
    { rewrite (last_at _ k) by (rewrite grid_length; auto). rewrite grid_nth, E. reflexivity. }
    rewrite HH, HL, HZ. cbn [fst]. pose proof (fits_at _ k G ltac:(lia)) as Fk. pose proof (fits_at _ (S k) G ltac:(lia)) as Fk1.
    pose proof (fits_at _ (k + S m) G ltac:(lia)) as Fm. pose proof (fits_at _ 0 G ltac:(lia)) as F0. assert (PH : 0 < h) by apply G.
    cbn [n_leb B64]. rewrite fnum_leb by assumption. destruct (Z.leb_spec (at_i (S k)) (at_i k)) as [Q|_]; [unfold at_i in Q; lia|].
    rewrite TD. replace (grid_dom (length vs)) with (mkI (fnum (at_i 0) e) (fnum (at_i k) e) false false) by (rewrite LV; cbn [grid_dom]; rewrite fnum_at0; reflexivity).
    assert (S0 : sound_ival (mkI (fnum (at_i 0) e) (fnum (at_i k) e) false false)).
    { apply sound_point; try assumption. unfold at_i. destruct k as [|k']; [right|left]; [auto|lia]. }
    destruct S0 as (-> & _). cbn [i_end].
    assert (SI : sound_ival (mkI (fnum (at_i k) e) (fnum (at_i (k + S m)) e) true false)).
    { apply sound_point; try assumption. left. unfold at_i. nia. }
    set (d := mkI (fnum (at_i k) e) (fnum (at_i (k + S m)) e) true false) in *.
    destruct (bracket (Some (grid_dom (length vs))) d SI) as [B1 B2].
    unfold p_begin. rewrite TU, B1.
    replace (p_int (set_upd (p_touch s) (mkU d i_empty (Some (grid_dom (length vs)))))) with (grid_step (length vs)) by (unfold p_touch, set_upd; cbn; congruence).
    replace (p_pts (set_upd (p_touch s) (mkU d i_empty (Some (grid_dom (length vs)))))) with (grid a h e vs) by (unfold p_touch, set_upd; cbn [p_pts]; congruence).
    rewrite (grid_equal_more vs ws ltac:(discriminate) G). cbn [negb]. rewrite andb_false_r. unfold p_finish.
    match goal with |- context [span_interval ?l] => replace l with (grid a h e (vs ++ ws)) by (unfold p_touch, set_upd, set_eq; cbn [p_pts]; rewrite P1; apply grid_app) end.
    rewrite (span_grid (vs ++ ws) G).
    unfold p_end. cbn -[grid i_empty end_update grid_step p_dom on_grid app length]. rewrite B2. cbn -[grid i_empty end_update grid_step p_dom on_grid app length].
    eexists. split; [reflexivity|]. split; [|reflexivity]. repeat split. exists None. split; [reflexivity|]. apply dom_grid.
Qed.
Lemma append_grid vs ws s : on_grid vs s -> grid_fits a h e (length (vs ++ ws)) ->
  snd (p_append_list s (grid (at_i (length vs)) h e ws)) = Ok tt /\ on_grid (vs ++ ws) (fst (fst (p_append_list s (grid (at_i (length vs)) h e ws)))) /\
  p_interp (fst (fst (p_append_list s (grid (at_i (length vs)) h e ws)))) = p_interp s.
Proof.
  intros O G. destruct vs as [|v0 vs0].
  - destruct O as (P1 & P2 & P3 & dom & U & D). cbn [length app grid] in *. unfold p_append_list. rewrite P1.
    replace (at_i 0) with a by (unfold at_i; lia). apply set_grid; try assumption.
    rewrite U. destruct dom as [d|]; [right|left; reflexivity]. unfold p_dom in D. rewrite U in D. cbn in D. subst d. reflexivity.
  - destruct ws as [|w r].
    { rewrite app_nil_r. cbn [grid]. unfold p_append_list. destruct (p_pts s) eqn:EP; [|auto].
      destruct O as (P1 & _). rewrite P1 in EP. discriminate. }
    destruct (append_events v0 vs0 w r s O G) as (s' & -> & Q). split; [reflexivity|exact Q].
Qed.
Lemma replace_grid vs s i v : on_grid vs s -> grid_fits a h e (length vs) -> (i < length vs)%nat ->
  forall oa, snd (p_replace s (fnum (at_i i) e, v) oa) = Ok tt /\ on_grid (list_set vs i v) (fst (fst (p_replace s (fnum (at_i i) e, v) oa))) /\
  p_interp (fst (fst (p_replace s (fnum (at_i i) e, v) oa))) = p_interp s.
Proof.
  intros O G L oa. pose proof (touch_grid vs s O) as [TU TD].
  assert (OT : on_grid vs (p_touch s)).
  { destruct O as (P1 & P2 & P3 & _). repeat split; try assumption. exists (Some (grid_dom (length vs))). auto. }
  unfold p_replace. cbn [fst]. rewrite (in_dom _ i vs _ G eq_refl L OT). cbn [negb].
  pose proof (fits_at _ i G L) as FI.
  assert (SI : sound_ival (mkI (fnum (at_i i) e) (fnum (at_i i) e) false false)) by (apply sound_point; auto).
  change (i_point (fnum (at_i i) e)) with (mkI (fnum (at_i i) e) (fnum (at_i i) e) false false). set (d := mkI (fnum (at_i i) e) _ false false) in *.
  destruct (bracket (Some (grid_dom (length vs))) d SI) as [B1 B2]. unfold p_begin. rewrite TU, B1.
  set (s2 := set_upd (p_touch s) (mkU d i_empty (Some (grid_dom (length vs))))).
  assert (XI : x_index s2 (fnum (at_i i) e) = x_index (p_touch s) (fnum (at_i i) e)) by reflexivity.
  rewrite XI, (index_at _ i vs _ G eq_refl L OT). cbn [rbind]. rewrite whole_ceil by (try (eapply fits_count; eassumption); lia). cbn [rbind].
  assert (PS : p_pts s2 = grid a h e vs) by (apply O). rewrite PS.
  destruct (nth_error vs i) as [w|] eqn:E; [|apply nth_error_None in E; lia].
  rewrite (py_at _ i (fnum (at_i i) e, w)) by (rewrite grid_nth, E; reflexivity). cbn [rbind fst n_eqb B64].
  rewrite fnum_eqb, Z.eqb_refl by assumption. cbn [negb]. rewrite Nat2Z.id. change (list_set (grid a h e vs) i (fnum (at_i i) e, v)) with (list_set (grid a h e vs) i (fnum (a + Z.of_nat i * h) e, v)). rewrite grid_set. unfold p_finish.
  rewrite (span_grid (list_set vs i v)) by (rewrite set_length; exact G).
  unfold p_end. cbn -[grid i_empty end_update grid_step p_dom on_grid length]. rewrite B2. cbn -[grid i_empty end_update grid_step p_dom on_grid length].
  split; [reflexivity|]. split; [|reflexivity]. destruct O as (P1 & P2 & P3 & _). repeat split; try exact P3. exists None. split; [reflexivity|]. apply dom_grid.
Qed.
End Grid.

(** Histories: construction, appends that continue the grid, replacements at grid positions. *)
Inductive grid_run {V} {W : Val b64 V} (a h e : Z) : list V -> pts b64 V -> Prop :=
| gr_init vs ip u : grid_run a h e vs (fst (fst (p_init (grid a h e vs) ip u)))
| gr_append vs ws s : grid_run a h e vs s ->
    grid_run a h e (vs ++ ws) (fst (fst (p_append_list s (grid (a + Z.of_nat (length vs) * h) h e ws))))
| gr_replace vs s i v oa : grid_run a h e vs s -> (i < length vs)%nat ->
    grid_run a h e (list_set vs i v) (fst (fst (p_replace s (fnum (a + Z.of_nat i * h) e, v) oa))).

Lemma run_on_grid {V} {W : Val b64 V} a h e (vs : list V) s : grid_fits a h e (length vs) -> grid_run a h e vs s -> on_grid a h e vs s.
Proof.
  intros G R. induction R as [vs ip u|vs ws s R IH|vs s i v oa R IH L].
  - apply set_grid; try reflexivity; [left; reflexivity|exact G].
  - apply append_grid; [apply IH; eapply fits_shorter; [exact G|rewrite app_length; lia]|exact G].
  - rewrite set_length in G. apply replace_grid; auto.
Qed.
Lemma run_y {V} {W : Val b64 V} a h e (vs : list V) s i v : grid_fits a h e (length vs) -> grid_run a h e vs s -> nth_error vs i = Some v ->
  p_y s (fnum (a + Z.of_nat i * h) e) = Ok v.
Proof. intros G R E. eapply (grid_y a h e); eauto using run_on_grid. Qed.
Lemma run_accepts {V} {W : Val b64 V} a h e (vs : list V) ip u :
  grid_fits a h e (length vs) -> snd (p_init (grid a h e vs) ip u) = Ok tt.
Proof. intros G. apply (set_grid a h e); try reflexivity; [left; reflexivity|exact G]. Qed.
Lemma run_append {V} {W : Val b64 V} a h e (vs ws : list V) s : grid_fits a h e (length (vs ++ ws)) -> grid_run a h e vs s ->
  snd (p_append_list s (grid (a + Z.of_nat (length vs) * h) h e ws)) = Ok tt.
Proof. intros G R. apply append_grid; [|exact G]. apply run_on_grid; [|exact R]. eapply fits_shorter; [exact G|rewrite app_length; lia]. Qed.
Lemma run_replace {V} {W : Val b64 V} a h e (vs : list V) s i v oa : grid_fits a h e (length vs) -> grid_run a h e vs s -> (i < length vs)%nat ->
  snd (p_replace s (fnum (a + Z.of_nat i * h) e, v) oa) = Ok tt.
Proof. intros G R L. apply replace_grid with (vs := vs); auto using run_on_grid. Qed.
