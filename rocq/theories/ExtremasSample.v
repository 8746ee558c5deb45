(** Sampling an Extremas object (extremas.py:86-88). *)
From Coq Require Import List ZArith QArith Qcanon Bool Lia Sorting.Sorted.
From Verif Require Import Base Num NumFacts Interval IntervalFacts Curve Points PointsSpec PointsIdx PointsOps PointsQuery PointsReset PointsCover PointsDec PointsMut Combine Scan ScanFacts ScanInv ScanSource ScanSample ScanSampleFacts ScanSampleAcc ScanSampleTop.
From Verif Require Import Extremas ExtremasFold ExtremasUniq ExtremasVal ExtremasInv ExtremasLife ExtremasHist.
Import ListNotations.
Open Scope Qc_scope.

Section Model.
Context {T : Type} {N : Num T}.
Notation V := (option T).
(* scan.py:69-81 sample_points, with the methods of extremas.py *)
Definition ex_scan_sample (fuel : nat) (c : crv T V) (own : option T) (dev : T) (r : T -> res V) (e : exs T)
    (domain : option (ival T)) (ms step : option T) : exs T * res (list (T * V)) :=
  let ms := resolve_min_step own ms in
  let '(e, d0) := ex_dom (c_dom c) e in
  let dom := match domain with None => d0 | Some d => i_inter2 d0 d end in
  if i_is_empty dom then (e, Ok [])
  else if i_is_infinite dom then (e, Err EExc)
  else
    match ex_scan fuel c own dev r (i_start dom) e with
    | (e, Err er) => (e, Err er)
    | (e, Ok _) =>
        match ex_scan fuel c own dev r (i_end dom) e with
        | (e, Err er) => (e, Err er)
        | (e, Ok _) =>
            st_sample own (ex_dom (c_dom c)) (ex_y fuel c own dev r) (ex_next c own) fuel e (Some dom) ms step
        end
    end.
(* extremas.py:86-88 sample_points *)
Definition ex_sample_points (fuel : nat) (c : crv T V) (own : option T) (dev : T) (r : T -> res V) (e : exs T)
    (domain : option (ival T)) (ms step : option T) : exs T * res (list (T * V)) :=
  match ex_scan_sample fuel c own dev r e domain ms step with
  | (e, Err er) => (e, Err er)
  | (e, Ok ps) => (e, Ok (ex_sample ps))
  end.
End Model.

(** ** Sampling through a state that knows its steps up to the end of the window *)
Definition past (b : Qc) (o : option xq) : Prop := match o with None => True | Some x => exists z, x = Fin z /\ b < z end.
Definition agree (b : Qc) (o o' : option xq) : Prop := o = o' \/ past b o /\ past b o'.

Section StLoop.
Context {S V U : Type} {UV : Val xq U}.
Context (own : option xq) (rd : S -> S * ival xq) (qy : S -> xq -> S * res V)
        (nx : S -> xq -> option xq -> option xq -> res (option xq)).
Context (I : S -> Prop) (L : list (xq * U)) (M a b : Qc) (f : Qc -> V).
Context (HM : 0 < M) (A : ascending L).
Context (QY : forall s q, I s -> a <= q -> q <= b -> exists s', qy s (Fin q) = (s', Ok (f q)) /\ I s').
Context (NX : forall s q, I s -> a <= q -> q <= b -> exists o, nx s (Fin q) (Some (Fin M)) (Some (Fin b)) = Ok o /\ agree b o (following L M (Fin q))).
Notation row := (fun x => (Fin x, f x)).

Lemma past_bin y o (by_ : Z) : by_ = Qcround (y / M) -> y <= b -> by_ <> Qcround (b / M) -> past b o ->
  match o with
  | None => Ok tt
  | Some x1v => let! q1 := n_div x1v (Fin M) in let! x1_bin := n_round q1 in if (x1_bin <=? by_)%Z then Err EExc else Ok tt
  end = Ok tt.
Proof using HM.
  intros -> Lb NQ P. destruct o as [x|]; [|reflexivity]. destruct P as (z & -> & LZ).
  pose proof (bin_of M HM z) as B. destruct (n_div (Fin z) (Fin M)) as [q|]; [|discriminate]. cbn [rbind] in *. rewrite B. cbn [rbind].
  pose proof (bin_le M HM b z (Qclt_le_weak _ _ LZ)). pose proof (bin_le M HM y b Lb).
  destruct (Z.leb_spec (Qcround (z / M)) (Qcround (y / M))); [lia|reflexivity].
Qed.
Lemma past_stop fuel s o : past b o -> st_ms_loop qy nx (Datatypes.S fuel) s (Fin b) (Fin M) (Qcround (b / M)) o = (s, Ok []).
Proof using.
  intros P. cbn [st_ms_loop]. destruct o as [x|]; [|reflexivity]. destruct P as (z & -> & LZ). cbn [n_leb XQ xq_leb].
  rewrite (proj2 (Qcleb_false _ _) LZ). reflexivity.
Qed.

Lemma st_loop_strided x r : strided L M b x r -> forall fuel s o, (length r < fuel)%nat -> spread M r -> a <= x -> I s ->
  agree b o (following L M (Fin x)) ->
  exists s', st_ms_loop qy nx fuel s (Fin b) (Fin M) (Qcround (b / M)) o = (s', Ok (map row r)) /\ I s'.
Proof using HM A QY NX UV.
  induction 1 as [x N|x y N Lt|x y r N Le ST IH]; intros [|fuel] s o F SP LA Is AG; try (cbn in F; lia).
  - exists s. split; auto. apply past_stop. destruct AG as [->|[P _]]; auto. rewrite N. exact Logic.I.
  - exists s. split; auto. apply past_stop. destruct AG as [->|[P _]]; auto. rewrite N. exists y. auto.
  - assert (o = Some (Fin y)) as ->.
    { destruct AG as [->|[_ P]]; auto. rewrite N in P. destruct P as (z & Ez & Lz). injection Ez as <-. exfalso. qc_lra. }
    destruct (following_fin L M x _ A N) as (y' & E & G). injection E as <-. cbn [st_ms_loop map].
    cbn [n_leb XQ xq_leb]. rewrite (proj2 (Qcleb_true _ _) Le). cbn [negb].
    assert (AY : a <= y) by qc_lra. destruct (QY s y Is AY Le) as (s1 & E1 & I1). rewrite E1.
    pose proof (bin_of M HM y) as B. rewrite B.
    destruct (Z.eqb_spec (Qcround (y / M)) (Qcround (b / M))) as [Q|Q].
    + destruct r as [|z r]; [exists s1; auto|]. exfalso. inversion ST as [| |? ? ? Nz Lz Sz]; subst.
      destruct (following_fin L M y _ A Nz) as (z' & E & Gz). injection E as <-. destruct SP as [SP _].
      pose proof (bin_lt M HM y z Gz SP). pose proof (bin_le M HM z b Lz). lia.
    + destruct (NX s1 y I1 AY Le) as (o1 & EN & AG1). rewrite EN.
      assert (CK : match o1 with
        | None => Ok tt
        | Some x1v => let! q1 := n_div x1v (Fin M) in let! x1_bin := n_round q1 in if (x1_bin <=? Qcround (y / M))%Z then Err EExc else Ok tt
        end = Ok tt).
      { destruct AG1 as [->|[P _]]; [|now apply (past_bin y)].
        inversion ST as [? Nz|? z Nz Lz|? z ? Nz Lz Sz]; subst; rewrite Nz; [reflexivity| |].
        - apply (past_bin y (Some (Fin z))); auto. exists z. auto.
        - destruct (following_fin L M y _ A Nz) as (z' & E & Gz). injection E as <-. destruct SP as [SP _].
          pose proof (bin_lt M HM y z Gz SP) as LT. pose proof (bin_of M HM z) as Bz.
          destruct (n_div (Fin z) (Fin M)) as [q|]; [|discriminate]. cbn [rbind] in *. rewrite Bz. cbn [rbind].
          destruct (Z.leb_spec (Qcround (z / M)) (Qcround (y / M))); [lia|reflexivity]. }
      cbn [rbind]. rewrite CK. cbn [rbind]. destruct (IH fuel s1 o1) as (s2 & E2 & I2); auto; [cbn in F; lia|destruct r; [exact Logic.I|apply SP]|].
      rewrite E2. exists s2. auto.
Qed.

Lemma st_step_rows h fuel : forall s n x, I s -> a <= x -> 0 < h ->
  (forall i, (i < n)%nat -> x + QcofZ (Z.of_nat i) * h <= b) -> b < x + QcofZ (Z.of_nat n) * h -> (n < fuel)%nat ->
  exists s', st_step_loop qy fuel s (Fin b) (Fin h) (Fin x) = (s', Ok (map row (map (fun i => x + QcofZ (Z.of_nat i) * h) (seq 0 n)))) /\ I s'.
Proof using QY.
  induction fuel as [|fuel IH]; intros s n x Is LA Hh IN OUT F; [lia|]. cbn [st_step_loop n_leb XQ xq_leb].
  destruct n as [|n].
  - change (QcofZ (Z.of_nat 0)) with 0 in OUT. replace (x + 0 * h) with x in OUT by ring. rewrite (proj2 (Qcleb_false _ _) OUT). exists s. auto.
  - pose proof (IN 0%nat ltac:(lia)) as L0. change (QcofZ (Z.of_nat 0)) with 0 in L0. replace (x + 0 * h) with x in L0 by ring.
    rewrite (proj2 (Qcleb_true _ _) L0). destruct (QY s x Is LA L0) as (s1 & E1 & I1). rewrite E1.
    assert (SH : forall i, x + h + QcofZ (Z.of_nat i) * h = x + QcofZ (Z.of_nat (Datatypes.S i)) * h).
    { intros i. rewrite Nat2Z.inj_succ. unfold Z.succ. rewrite QcofZ_add, QcofZ_1. ring. }
    cbn [n_add XQ xq_add].
    destruct (IH s1 n (x + h)) as (s2 & E2 & I2); auto; try lia.
    + qc_lra.
    + intros i Li. rewrite SH. apply IN. lia.
    + now rewrite SH.
    + rewrite E2. exists s2. split; auto. cbn [seq map]. change (QcofZ (Z.of_nat 0)) with 0. replace (x + 0 * h) with x by ring.
      rewrite <- seq_shift, !map_map. do 2 f_equal. f_equal. apply map_ext. intros i. now rewrite SH.
Qed.

Context (D : ival xq) (RD : forall s, I s -> exists s', rd s = (s', D) /\ I s').

Theorem st_sample_strided fuel s domain ms r dom : I s -> a <= b ->
  match domain with None => D | Some d => i_inter2 D d end = dom ->
  i_is_empty dom = false -> i_start dom = Fin a -> i_end dom = Fin b -> i_so dom = false ->
  resolve_min_step own ms = Some (Fin M) -> strided L M b a r -> spread M r -> (length r < fuel)%nat ->
  exists s', st_sample own rd qy nx fuel s domain ms None =
    (s', Ok (map row (a :: r ++ (if i_eo dom || Qceqb (last r a) b then [] else [b])))) /\ I s'.
Proof using HM A QY NX RD UV.
  intros Is AB ED NE ES EE SO R ST SP F. unfold st_sample. destruct (RD s Is) as (s0 & E0 & I0). rewrite E0, ED, NE.
  assert (FD : i_is_finite dom = true) by (unfold i_is_finite; rewrite ES, EE; reflexivity).
  rewrite FD, ES, EE, SO, R. cbn [negb]. rewrite (bin_of M HM).
  destruct (QY s0 a I0 (Qcle_refl a) AB) as (s1 & E1 & I1). rewrite E1.
  assert (G0 : n_gtb (Fin M) n_zero = true) by (cbn; now apply Qcltb_true). rewrite G0.
  destruct (NX s1 a I1 (Qcle_refl a) AB) as (o & EN & AG). rewrite EN.
  destruct (st_loop_strided a r ST fuel s1 o F SP (Qcle_refl a) I1 AG) as (s2 & E2 & I2). rewrite E2.
  destruct (i_eo dom); cbn [orb]; [exists s2; split; auto; now rewrite app_nil_r|].
  assert (LO : last_opt ([(Fin a, f a)] ++ map row r) = Some (Fin (last r a), f (last r a))).
  { clear. unfold last_opt. destruct r as [|z r] using rev_ind; [reflexivity|]. rewrite map_app, app_assoc, rev_app_distr, last_last. reflexivity. }
  rewrite LO. cbn [n_eqb XQ xq_eqb]. destruct (Qceqb (last r a) b); cbn [negb].
  - exists s2. split; auto. now rewrite app_nil_r.
  - destruct (QY s2 b I2 AB (Qcle_refl b)) as (s3 & E3 & I3). rewrite E3. exists s3. split; auto. cbn [app map]. rewrite map_app. reflexivity.
Qed.
Theorem st_sample_steps fuel s domain ms h n dom : I s -> a <= b ->
  match domain with None => D | Some d => i_inter2 D d end = dom ->
  i_is_empty dom = false -> i_start dom = Fin a -> i_end dom = Fin b -> i_so dom = false ->
  resolve_min_step own ms = Some (Fin M) -> 0 < h ->
  (forall i, (i <= n)%nat -> a + QcofZ (Z.of_nat i) * h <= b) -> b < a + QcofZ (Z.of_nat (Datatypes.S n)) * h -> (n < fuel)%nat ->
  exists s', st_sample own rd qy nx fuel s domain ms (Some (Fin h)) =
    (s', Ok (map row (map (fun i => a + QcofZ (Z.of_nat i) * h) (seq 0 (Datatypes.S n))))) /\ I s'.
Proof using HM QY RD.
  intros Is AB ED NE ES EE SO R Hh IN OUT F. unfold st_sample. destruct (RD s Is) as (s0 & E0 & I0). rewrite E0, ED, NE.
  assert (FD : i_is_finite dom = true) by (unfold i_is_finite; rewrite ES, EE; reflexivity).
  rewrite FD, ES, EE, SO, R. cbn [negb]. rewrite (bin_of M HM).
  destruct (QY s0 a I0 (Qcle_refl a) AB) as (s1 & E1 & I1). rewrite E1. cbn [n_add XQ xq_add].
  assert (SH : forall i, a + h + QcofZ (Z.of_nat i) * h = a + QcofZ (Z.of_nat (Datatypes.S i)) * h).
  { intros i. rewrite Nat2Z.inj_succ. unfold Z.succ. rewrite QcofZ_add, QcofZ_1. ring. }
  destruct (st_step_rows h fuel s1 n (a + h) I1) as (s2 & E2 & I2); auto.
  - qc_lra.
  - intros i Li. rewrite SH. apply IN. lia.
  - now rewrite SH.
  - rewrite E2. exists s2. split; auto. cbn [seq map app]. change (QcofZ (Z.of_nat 0)) with 0. replace (a + 0 * h) with a by ring.
    rewrite <- seq_shift, !map_map. do 3 f_equal. apply map_ext. intros i. now rewrite SH.
Qed.
End StLoop.
