(** What sampling returns for a curve that steps along points, and for
    accumulating curves over it. *)
From Coq Require Import List ZArith QArith Qcanon Bool Sorting.Sorted Lia Arith.
From Verif Require Import Base Num NumFacts Interval IntervalFacts Curve BaseFacts.
From Verif Require Import Points PointsSpec PointsIdx PointsQuery PointsDom PointsOps PointsMut PointsReset PointsReplace PointsCover PointsHist PointsDec.
From Verif Require Import Combine CombineFacts CombineTop Scan ScanFacts ScanSource ScanInv ScanTf SmaFacts SmaInv ScanTop ScanView ScanSample ScanSampleFacts ScanSampleAcc.
Import ListNotations.

(** [r]: from [x], the points met by stepping at least [M] each time, up to [b] *)
Inductive strided {U} (l : list (xq * U)) (M b : Qc) : Qc -> list Qc -> Prop :=
| sd_end x : following l M (Fin x) = None -> strided l M b x []
| sd_past x y : following l M (Fin x) = Some (Fin y) -> (b < y)%Qc -> strided l M b x []
| sd_go x y r : following l M (Fin x) = Some (Fin y) -> (y <= b)%Qc -> strided l M b y r -> strided l M b x (y :: r).

(** no two neighbours exactly [M] apart, unless the rounding of x/[M] is not a tie *)
Fixpoint spread (M : Qc) (r : list Qc) : Prop :=
  match r with
  | x :: (y :: _) as r' => ((x + M < y)%Qc \/ no_tie (x / M)%Qc) /\ spread M r'
  | _ => True
  end.

Section Loop.
Context {V U : Type} {UV : Val xq U} (c : crv xq V) (l : list (xq * U)) (M a b : Qc) (f : Qc -> V).
Context (HM : (0 < M)%Qc) (A : ascending l) (SC : strides M c l).
Context (Y : forall q, (a <= q)%Qc -> (q <= b)%Qc -> c_y c (Fin q) = Ok (f q)).
Notation row := (fun x => (Fin x, f x)).

Lemma M_nz : M <> 0%Qc. Proof using HM. intros E. revert HM. rewrite E. intros H. qc_lra. Qed.
Lemma bin_of q : (let! v := n_div (Fin q) (Fin M) in n_round v) = Ok (Qcround (q / M)).
Proof using HM. cbn. destruct (Qceqb M 0) eqn:E; [|reflexivity]. apply Qceqb_true in E. now apply M_nz in E. Qed.
Lemma div_mono x y : (x <= y)%Qc -> (x / M <= y / M)%Qc.
Proof using HM.
  intros L. destruct (Qclt_le_dec (y / M) (x / M)) as [H|H]; auto. exfalso.
  assert (E1 : (x / M * M)%Qc = x) by (field; apply M_nz). assert (E2 : (y / M * M)%Qc = y) by (field; apply M_nz).
  revert E1 E2 H. generalize (x / M)%Qc (y / M)%Qc. intros u v <- <- H. qc_nra.
Qed.
Lemma div_step x : ((x + M) / M = x / M + 1)%Qc.
Proof using HM. field. apply M_nz. Qed.
Lemma bin_le x y : (x <= y)%Qc -> (Qcround (x / M) <= Qcround (y / M))%Z.
Proof using HM. intros L. now apply Qcround_mono, div_mono. Qed.
Lemma bin_lt x y : (x + M <= y)%Qc -> (x + M < y)%Qc \/ no_tie (x / M)%Qc -> (Qcround (x / M) < Qcround (y / M))%Z.
Proof using HM.
  intros L [S|NT].
  - assert (X : (x / M + 1 < y / M)%Qc).
    { pose proof (div_mono _ _ L) as X. rewrite div_step in X. apply Qcle_lt_or_eq in X as [X|X]; auto. exfalso.
      assert (E2 : (y / M * M)%Qc = y) by (field; apply M_nz). assert (E1 : (x / M * M)%Qc = x) by (field; apply M_nz).
      rewrite <- X in E2. assert (E3 : ((x / M + 1) * M = x + M)%Qc) by (rewrite <- E1 at 2; ring). rewrite E3 in E2. revert S. rewrite E2. intros S. qc_lra. }
    destruct (Qcround_spec (x / M)) as [A1 A2]. destruct (Qcround_spec (y / M)) as [B1 B2]. pose proof half_Q as HQ.
    destruct (Z.lt_ge_cases (Qcround (x / M)) (Qcround (y / M))) as [K|K]; auto. exfalso. apply QcofZ_le in K.
    revert X A1 A2 B1 B2 K. generalize (x / M)%Qc (y / M)%Qc. intros. qc_lra.
  - pose proof (div_mono _ _ L) as X. rewrite div_step in X. apply Qcround_mono in X.
    replace (x / M + 1)%Qc with (x / M + QcofZ 1)%Qc in X by (rewrite QcofZ_1; reflexivity). rewrite Qcround_add in X by auto. lia.
Qed.

Lemma loop_strided x r : strided l M b x r -> forall fuel, (length r < fuel)%nat -> spread M r -> (a <= x)%Qc ->
  sp_ms_loop fuel c (Fin b) (Fin M) (Qcround (b / M)) (following l M (Fin x)) = Ok (map row r).
Proof using HM A SC Y UV.
  induction 1 as [x N|x y N L|x y r N L S IH]; intros [|fuel] F SP LA; try (cbn in F; lia); rewrite N; cbn [sp_ms_loop map].
  - reflexivity.
  - cbn [n_leb XQ xq_leb]. rewrite (proj2 (Qcleb_false _ _) L). reflexivity.
  - destruct (following_fin l M x _ A N) as (y' & E & G). injection E as <-.
    cbn [n_leb XQ xq_leb]. rewrite (proj2 (Qcleb_true _ _) L). cbn [negb].
    assert (AY : (a <= y)%Qc) by qc_lra. rewrite Y by auto. cbn [rbind].
    assert (BY : forall K : Z -> res (list (xq * V)), (let! q := n_div (Fin y) (Fin M) in let! x_bin := n_round q in K x_bin) = K (Qcround (y / M))).
    { intros K. pose proof (bin_of y) as B. destruct (n_div (Fin y) (Fin M)) as [q|]; [|discriminate]. cbn [rbind] in *. now rewrite B. }
    rewrite BY. clear BY. destruct (Z.eqb_spec (Qcround (y / M)) (Qcround (b / M))) as [Q|Q].
    + destruct r as [|z r]; [reflexivity|]. exfalso. inversion S as [| |? ? ? Nz Lz Sz]; subst.
      destruct (following_fin l M y _ A Nz) as (z' & E & Gz). injection E as <-. destruct SP as [SP _].
      pose proof (bin_lt y z Gz SP). pose proof (bin_le z b Lz). lia.
    + rewrite SC. cbn [rbind].
      assert (CK : match following l M (Fin y) with
        | None => Ok tt
        | Some x1v => let! q1 := n_div x1v (Fin M) in let! x1_bin := n_round q1 in if (x1_bin <=? Qcround (y / M))%Z then Err EExc else Ok tt
        end = Ok tt).
      { assert (Z0 : forall z, (Qcround (y / M) < Qcround (z / M))%Z ->
          (let! q1 := n_div (Fin z) (Fin M) in let! x1_bin := n_round q1 in if (x1_bin <=? Qcround (y / M))%Z then Err EExc else Ok tt) = Ok tt).
        { intros z Lz. pose proof (bin_of z) as B. destruct (n_div (Fin z) (Fin M)) as [q|]; [|discriminate]. cbn [rbind] in *. rewrite B. cbn [rbind].
          destruct (Z.leb_spec (Qcround (z / M)) (Qcround (y / M))); [lia|reflexivity]. }
        inversion S as [? Nz|? z Nz Lz|? z ? Nz Lz Sz]; subst; rewrite Nz; [reflexivity| |]; apply Z0.
        - pose proof (bin_le b z (Qclt_le_weak _ _ Lz)). pose proof (bin_le y b L). lia.
        - destruct (following_fin l M y _ A Nz) as (z' & E & Gz). injection E as <-. destruct SP as [SP _]. now apply bin_lt. }
      rewrite CK. cbn [rbind]. rewrite IH; [reflexivity|cbn in F; lia| |exact AY].
      destruct r; [exact I|apply SP].
Qed.

Theorem sample_strided fuel domain ms r : (a <= b)%Qc ->
  i_is_empty (sampled_domain c domain) = false ->
  i_start (sampled_domain c domain) = Fin a -> i_end (sampled_domain c domain) = Fin b -> i_so (sampled_domain c domain) = false ->
  resolve_min_step (c_ms c) ms = Some (Fin M) -> strided l M b a r -> spread M r -> (length r < fuel)%nat ->
  sample_points fuel c domain ms None =
    Ok (map row (a :: r ++ (if i_eo (sampled_domain c domain) || Qceqb (last r a) b then [] else [b]))).
Proof using HM A SC Y UV.
  intros AB NE ES EE SO R S SP F. unfold sample_points. fold (sampled_domain c domain). cbv zeta. rewrite NE.
  assert (FD : i_is_finite (sampled_domain c domain) = true) by (unfold i_is_finite; rewrite ES, EE; reflexivity).
  rewrite FD, ES, EE, SO, R. cbn [negb]. rewrite bin_of. cbn [rbind]. rewrite Y by (auto; apply Qcle_refl). cbn [rbind].
  assert (G0 : n_gtb (Fin M) n_zero = true) by (cbn; now apply Qcltb_true). rewrite G0, SC. cbn [rbind].
  rewrite (loop_strided a r S fuel F SP (Qcle_refl a)). cbn [rbind].
  destruct (i_eo (sampled_domain c domain)); cbn [orb]; [now rewrite app_nil_r|].
  assert (LO : last_opt ([(Fin a, f a)] ++ map row r) = Some (Fin (last r a), f (last r a))).
  { clear. unfold last_opt. destruct r as [|z r] using rev_ind; [reflexivity|]. rewrite map_app, app_assoc, rev_app_distr, last_last. reflexivity. }
  rewrite LO. cbn [n_eqb XQ xq_eqb]. destruct (Qceqb (last r a) b); cbn [negb].
  - now rewrite app_nil_r.
  - rewrite Y by (auto; apply Qcle_refl). cbn [rbind app map]. rewrite map_app. reflexivity.
Qed.
End Loop.

(** ** Points more than the minimum step apart *)
Definition kept (M a b : Qc) (ks : list Qc) : list Qc := filter (fun x => Qcleb (a + M) x && Qcleb x b) ks.
Notation gaps M := (StronglySorted (fun x y => (x + M < y)%Qc)).

Lemma following_ks {U} (l : list (xq * U)) ks M x : map fst l = map Fin ks ->
  following l M (Fin x) = option_map Fin (find (fun y => Qcleb (x + M) y) ks).
Proof.
  intros E. unfold following. rewrite E. clear E. induction ks as [|k ks IH]; [reflexivity|]. cbn [map find].
  change (n_leb (n_add (Fin x) (Fin M)) (Fin k)) with (Qcleb (x + M) k). destruct (Qcleb (x + M) k); [reflexivity|exact IH].
Qed.
Lemma filter_none {A} (P : A -> bool) l : Forall (fun x => P x = false) l -> filter P l = [].
Proof. induction 1 as [|x l E _ IH]; [reflexivity|]. cbn. now rewrite E. Qed.
Lemma filter_ext_Forall {A} (P Q : A -> bool) l : Forall (fun x => P x = Q x) l -> filter P l = filter Q l.
Proof. induction 1 as [|x l E _ IH]; [reflexivity|]. cbn. now rewrite E, IH. Qed.
Lemma gaps_app M l1 l2 : gaps M (l1 ++ l2) -> gaps M l2 /\ Forall (fun y => Forall (fun x => (x + M < y)%Qc) l1) l2.
Proof.
  induction l1 as [|x l1 IH]; cbn; intros S.
  - split; auto. apply Forall_forall. intros. constructor.
  - inversion S as [|? ? S1 F]; subst. destruct (IH S1) as [S2 F2]. split; auto. apply Forall_forall. intros y Iy.
    constructor; [|now apply (proj1 (Forall_forall _ _) F2)]. apply (proj1 (Forall_forall _ _) F). apply in_or_app. now right.
Qed.

Section Ks.
Context {U : Type} (l : list (xq * U)) (ks : list Qc) (M b : Qc).
Context (HM : (0 < M)%Qc) (K : map fst l = map Fin ks) (S : gaps M ks).

Lemma find_past ks1 ks2 P : Forall (fun x => P x = false) ks1 -> @find Qc P (ks1 ++ ks2) = find P ks2.
Proof using. intros F. rewrite find_app. induction F as [|x ks1 E F IH]; [reflexivity|]. cbn. now rewrite E. Qed.

Lemma strided_from ks2 : forall ks1 x, ks = ks1 ++ x :: ks2 -> strided l M b x (filter (fun y => Qcleb y b) ks2).
Proof using HM K S.
  induction ks2 as [|y ks2 IH]; intros ks1 x E.
  - apply sd_end. rewrite (following_ks l ks M x K), E, find_past.
    + cbn. rewrite (proj2 (Qcleb_false _ _)); [reflexivity|]. qc_lra.
    + rewrite E in S. destruct (gaps_app _ _ _ S) as [_ F]. inversion F as [|? ? Fx _]; subst. eapply Forall_impl; [|exact Fx].
      intros z Lz. cbn in Lz. apply Qcleb_false. qc_lra.
  - assert (Q : following l M (Fin x) = Some (Fin y)).
    { rewrite (following_ks l ks M x K), E. rewrite E in S. destruct (gaps_app _ _ _ S) as [S2 F]. rewrite find_past.
      - cbn. rewrite (proj2 (Qcleb_false _ _)) by qc_lra. inversion S2 as [|? ? _ Fx]; subst. inversion Fx as [|? ? Ly _]; subst.
        rewrite (proj2 (Qcleb_true _ _)) by now apply Qclt_le_weak. reflexivity.
      - inversion F as [|? ? Fx _]; subst. eapply Forall_impl; [|exact Fx]. intros z Lz. cbn in Lz. apply Qcleb_false. qc_lra. }
    cbn [filter]. destruct (Qcleb y b) eqn:L.
    + apply Qcleb_true in L. eapply sd_go; eauto. apply (IH (ks1 ++ [x])). rewrite E, <- app_assoc. reflexivity.
    + apply Qcleb_false in L. rewrite filter_none; [eapply sd_past; eauto|]. rewrite E in S. destruct (gaps_app _ _ _ S) as [S2 _].
      inversion S2 as [|? ? S3 _]; subst. inversion S3 as [|? ? _ F]; subst. eapply Forall_impl; [|exact F]. intros z Lz. cbn in Lz. apply Qcleb_false. qc_lra.
Qed.

Lemma strided_kept a : strided l M b a (kept M a b ks).
Proof using HM K S.
  destruct (find (fun y => Qcleb (a + M) y) ks) as [y|] eqn:F.
  - assert (Q : following l M (Fin a) = Some (Fin y)) by (rewrite (following_ks l ks M a K), F; reflexivity).
    assert (SP : exists k1 k2, ks = k1 ++ y :: k2 /\ Forall (fun x => Qcleb (a + M) x = false) k1).
    { clear - F. induction ks as [|k r IH]; [discriminate|]. cbn in F. destruct (Qcleb (a + M) k) eqn:E.
      - injection F as ->. exists [], r. split; [reflexivity|constructor].
      - destruct (IH F) as (k1 & k2 & -> & G). exists (k :: k1), k2. split; [reflexivity|]. now constructor. }
    destruct SP as (k1 & k2 & E & F1). assert (GE : (a + M <= y)%Qc) by (apply find_some in F; now apply Qcleb_true).
    unfold kept. rewrite E. rewrite filter_app, (filter_none _ k1), app_nil_l.
    2: { eapply Forall_impl; [|exact F1]. intros z Z. cbn in Z. now rewrite Z. }
    pose proof S as S0. rewrite E in S0. destruct (gaps_app _ _ _ S0) as [S2 _]. apply StronglySorted_inv in S2 as [S3 F2].
    assert (X : filter (fun x => Qcleb (a + M) x && Qcleb x b) k2 = filter (fun x => Qcleb x b) k2).
    { apply filter_ext_Forall. eapply Forall_impl; [|exact F2]. intros z Lz. cbn in Lz. rewrite (proj2 (Qcleb_true _ _)) by qc_lra. reflexivity. }
    cbn [filter]. rewrite (proj2 (Qcleb_true _ _) GE), X. cbn [andb]. destruct (Qcleb y b) eqn:L.
    + apply Qcleb_true in L. eapply sd_go; eauto. eapply strided_from. exact E.
    + apply Qcleb_false in L. rewrite filter_none; [eapply sd_past; eauto|]. eapply Forall_impl; [|exact F2]. intros z Lz. cbn in Lz. apply Qcleb_false. qc_lra.
  - unfold kept. rewrite filter_none; [apply sd_end; rewrite (following_ks l ks M a K), F; reflexivity|].
    apply Forall_forall. intros z I. pose proof (find_none _ _ F z I) as Z. cbn in Z. now rewrite Z.
Qed.
Lemma spread_kept a : spread M (kept M a b ks).
Proof using S.
  unfold kept. assert (G : gaps M (filter (fun x => Qcleb (a + M) x && Qcleb x b) ks)).
  { clear K. induction S as [|x r S' IH F]; [constructor|]. cbn [filter]. destruct (_ && _); auto. constructor; auto.
    apply Forall_forall. intros y I. apply filter_In in I as [I _]. now apply (proj1 (Forall_forall _ _) F). }
  induction G as [|x r G IH F]; [exact I|]. cbn. destruct r as [|y r]; [exact I|]. split; [|exact IH]. left. now inversion F.
Qed.
End Ks.

Lemma inter_inside x0 xn u v : (x0 <= u)%Qc -> (u <= v)%Qc -> (v <= xn)%Qc ->
  i_inter2 (i_closed (Fin x0) (Fin xn)) (i_closed (Fin u) (Fin v)) = i_closed (Fin u) (Fin v).
Proof.
  intros L1 L2 L3. assert (E : forall a b, (a <= b)%Qc -> i_is_empty (i_closed (Fin a) (Fin b)) = false).
  { intros a b L. unfold i_is_empty, i_closed. cbn [i_start i_end i_so i_eo orb]. rewrite andb_false_r, orb_false_r. cbn. now apply Qcltb_false. }
  unfold i_inter2. rewrite !E by (auto; qc_lra). cbn [orb]. unfold later_start, earlier_end, i_closed. cbn [i_start i_end i_so i_eo n_ltb XQ xq_ltb orb].
  assert (E1 : (if Qcltb x0 u then (Fin u, false) else if Qcltb u x0 then (Fin x0, false) else (Fin x0, false)) = (Fin u, false)).
  { destruct (Qcltb x0 u) eqn:X; [reflexivity|]. apply Qcltb_false in X. assert (u = x0) by (apply Qcle_antisym; auto). subst. now destruct (Qcltb x0 x0). }
  assert (E2 : (if Qcltb xn v then (Fin xn, false) else if Qcltb v xn then (Fin v, false) else (Fin xn, false)) = (Fin v, false)).
  { rewrite (proj2 (Qcltb_false _ _) L3). destruct (Qcltb v xn) eqn:X; [reflexivity|]. apply Qcltb_false in X. now rewrite (Qcle_antisym _ _ L3 X). }
  rewrite E1, E2. fold (i_closed (Fin u) (Fin v)). change (mkI (Fin u) (Fin v) false false) with (i_closed (Fin u) (Fin v)). now rewrite E.
Qed.

(** ** Sampling an accumulating curve *)
Lemma last_opt_map {A B} (g : A -> B) l : last_opt (map g l) = option_map g (last_opt l).
Proof. unfold last_opt. rewrite <- map_rev. now destruct (rev l). Qed.
Section Rows.
Context {A W : Type} (qry : A -> xq -> res W) (a : A).
(** [r] has rows exactly at [xs], with the values that queries of [a] answer;
    queries of the state it leaves answer the same *)
Definition rows_at (xs : list Qc) (r : A * res (list (xq * W))) : Prop :=
  exists a' L, r = (a', Ok L) /\ Forall2 (fun x p => fst p = Fin x /\ qry a (Fin x) = Ok (snd p)) xs L /\ forall x, qry a' x = qry a x.

(** What sampling returns for points at [ks] and a minimum step [M]: all of them;
    in a window its ends and the points in it at least [M] after its start;
    equal steps; nothing outside. *)
Definition sampled_along (M : Qc) (fuel : nat) (ks : list Qc) (smp : option (ival xq) -> option xq -> A * res (list (xq * W))) : Prop :=
  rows_at ks (smp None None) /\
  (forall u v, (exists x, In x ks /\ (x <= u)%Qc) -> (u <= v)%Qc -> (exists x, In x ks /\ (v <= x)%Qc) ->
     let inner := kept M u v ks in
     rows_at (u :: inner ++ (if Qceqb (last inner u) v then [] else [v])) (smp (Some (i_closed (Fin u) (Fin v))) None)) /\
  (forall u v h, (exists x, In x ks /\ (x <= u)%Qc) -> (u <= v)%Qc -> (exists x, In x ks /\ (v <= x)%Qc) -> (0 < h)%Qc ->
     let n := Z.to_nat (Qcfloor ((v - u) / h)) in (n < fuel)%nat ->
     rows_at (map (fun i => (u + QcofZ (Z.of_nat i) * h)%Qc) (seq 0 (S n))) (smp (Some (i_closed (Fin u) (Fin v))) (Some (Fin h)))) /\
  (forall d step, iok d -> (forall x y q, In x ks -> In y ks -> (x <= q)%Qc -> (q <= y)%Qc -> ~ imem d (Fin q)) -> rows_at [] (smp (Some d) step)).
End Rows.

(** Any state whose sampling is the sampling of a curve with the points' domain
    and steps; [D] are the windows for which it is. *)
Section Along.
Context {St V W : Type} {WV : Val xq V}.
Context (own : option xq) (fuel : nat) (l : list (xq * V)) (Al : ascending l) (Fl : (length l < fuel)%nat).
Context (ms : option xq) (M : Qc) (HM : (0 < M)%Qc) (RM : resolve_min_step own ms = Some (Fin M)).
Context (ks : list Qc) (K : map fst l = map Fin ks) (GP : gaps M ks).
Context (qry : St -> xq -> res W) (a : St) (smp : option (ival xq) -> option xq -> St * res (list (xq * W))).
Context (f : Qc -> W) (f_value : forall q, qry a (Fin q) = Ok (f q)).
Let p : crv xq W := mkC (pts_domain l) (qry a) (fun x _ _ => Ok (following l M x)) (fun _ _ _ => Ok None) own.
Context (D : option (ival xq) -> Prop).
Context (pure_sample : forall domain step, D domain -> (forall d, domain = Some d -> iok d) ->
  exists a', smp domain step = (a', sample_points fuel p domain ms step) /\ forall x, qry a' x = qry a x).

Lemma rows_map xs : Forall2 (fun x p => fst p = Fin x /\ qry a (Fin x) = Ok (snd p)) xs (map (fun x => (Fin x, f x)) xs).
Proof. induction xs as [|x xs IH]; cbn [map]; constructor; auto. split; [reflexivity|apply f_value]. Qed.
Lemma ks_in x : In x ks <-> exists v, In (Fin x, v) l.
Proof.
  split.
  - intros I. apply (in_map Fin) in I. rewrite <- K in I. apply in_map_iff in I as ((y & v) & E & I). cbn in E. subst y. eauto.
  - intros (v & I). apply (in_map fst) in I. rewrite K in I. apply in_map_iff in I as (y & E & I). injection E as ->. exact I.
Qed.
Lemma ends x y : In x ks -> In y ks -> exists x0 xn v0 vn, head_opt l = Some (Fin x0, v0) /\ last_opt l = Some (Fin xn, vn) /\
  pts_domain l = i_closed (Fin x0) (Fin xn) /\ (x0 <= x)%Qc /\ (y <= xn)%Qc /\ (x0 <= xn)%Qc /\ In x0 ks /\ In xn ks.
Proof.
  intros Ix Iy. pose proof Al as A. apply ks_in in Ix as (v & Ix). apply ks_in in Iy as (w & Iy).
  assert (NL : l <> []) by (intros ->; destruct Ix).
  destruct (head_opt_some _ NL) as [hd Hh]. destruct (last_opt_some _ NL) as [z Hz].
  destruct (ascending_fin _ hd A (head_opt_in _ _ Hh)) as (x0 & v0 & ->). destruct (ascending_fin _ z A (last_opt_in _ _ Hz)) as (xn & vn & ->).
  exists x0, xn, v0, vn. split; auto. split; auto. split; [exact (ends_ok _ _ _ A Hh Hz)|].
  split; [apply le_x_fin; exact (ascending_head_le _ _ _ A Hh Ix)|].
  split; [|split].
  - apply le_x_fin. apply (proj2 (proj1 (span_closed l y _ _ A Hh Hz) ltac:(exists y, y, w, w; repeat split; auto; apply Qcle_refl))).
  - apply le_x_fin. exact (ascending_head_le _ _ _ A Hh (last_opt_in _ _ Hz)).
  - split; apply ks_in; eexists; [exact (head_opt_in _ _ Hh)|exact (last_opt_in _ _ Hz)].
Qed.

Lemma not_empty x y : (x <= y)%Qc -> i_is_empty (i_closed (Fin x) (Fin y)) = false.
Proof. intros L. unfold i_is_empty, i_closed. cbn [i_start i_end i_so i_eo orb]. rewrite andb_false_r, orb_false_r. cbn. now apply Qcltb_false. Qed.
Lemma kept_len u v : (length (kept M u v ks) < fuel)%nat.
Proof.
  eapply Nat.le_lt_trans; [|exact Fl]. rewrite <- (map_length fst l), K, map_length. unfold kept. clear.
  induction ks as [|k r IH]; cbn; [lia|]. destruct (_ && _); cbn; lia.
Qed.
Lemma along domain u v : D domain -> (forall d, domain = Some d -> iok d) -> (u <= v)%Qc -> sampled_domain p domain = i_closed (Fin u) (Fin v) ->
  rows_at qry a (u :: kept M u v ks ++ (if Qceqb (last (kept M u v ks) u) v then [] else [v])) (smp domain None).
Proof.
  intros DD ID L WD. destruct (pure_sample domain None DD ID) as (a' & E & I).
  rewrite (sample_strided p l M u v f HM Al) with (r := kept M u v ks) in E; rewrite ?WD; auto using not_empty, kept_len.
  - rewrite WD in E. cbn [i_closed i_eo orb] in E. exists a'. eexists. split; [exact E|]. split; [apply rows_map|exact I].
  - intros q lim. reflexivity.
  - intros q _ _. apply f_value.
  - now apply strided_kept.
  - now apply spread_kept.
Qed.

Theorem whole_ok : D None -> rows_at qry a ks (smp None None).
Proof.
    intros DN. destruct ks as [|x0' kr] eqn:EK.
    + assert (EL : l = []) by (apply map_eq_nil with (f := fst); exact K). destruct (pure_sample None None DN) as (a' & E & I); [discriminate|].
      exists a', []. split; [|split; [constructor|exact I]]. etransitivity; [exact E|]. f_equal. unfold sample_points. fold (sampled_domain p None). cbv zeta.
      assert (X : i_is_empty (sampled_domain p None) = true) by (unfold sampled_domain, p; cbn [c_dom]; rewrite EL; reflexivity). now rewrite X.
    + rewrite <- EK in *. assert (I0 : In x0' ks) by (rewrite EK; now left).
      destruct (ends x0' x0' I0 I0) as (x0 & xn & v0 & vn & Hh & Hz & DQ & L1 & L2 & L3 & J0 & Jn).
      assert (X0 : x0 = x0').
      { destruct l as [|[y w] l']; [discriminate|]. cbn in Hh. injection Hh as -> ->. rewrite EK in K. cbn in K. now injection K as ->. }
      subst x0'. pose proof (along None x0 xn DN ltac:(discriminate) L3 DQ) as R.
      assert (KK : kept M x0 xn ks = kr).
      { unfold kept. rewrite EK. cbn [filter]. rewrite (proj2 (Qcleb_false (x0 + M) x0)) by qc_lra. cbn [andb].
        assert (FA : Forall (fun x => (Qcleb (x0 + M) x && Qcleb x xn) = true) kr).
        { apply Forall_forall. intros x Ix. rewrite EK in GP. apply StronglySorted_inv in GP as [_ F0]. pose proof (proj1 (Forall_forall _ _) F0 x Ix) as Lx. cbn in Lx.
          rewrite (proj2 (Qcleb_true _ _)) by now apply Qclt_le_weak. cbn [andb]. apply Qcleb_true.
          assert (Iks : In x ks) by (rewrite EK; now right). destruct (ends x x Iks Iks) as (? & xm & ? & ? & ? & Hz' & _ & _ & L & _). congruence. }
        clear - FA. induction FA as [|x r E _ IH]; [reflexivity|]. cbn. now rewrite E, IH. }
      assert (LL : last kr x0 = xn).
      { assert (X : last_opt (map fst l) = Some (Fin xn)) by (rewrite last_opt_map, Hz; reflexivity).
        rewrite K, EK, last_opt_map in X. clear - X. unfold last_opt in X. destruct kr as [|z kr] using rev_ind; cbn in *.
        - congruence.
        - rewrite rev_app_distr in X. cbn in X. rewrite last_last. congruence. }
      rewrite KK, LL in R. rewrite (proj2 (Qceqb_true xn xn) eq_refl), app_nil_r, <- EK in R. exact R.
Qed.
Theorem sampled_ok : (forall domain, D domain) -> sampled_along qry a M fuel ks smp.
Proof.
  intros DA. split; [now apply whole_ok|split; [|split]].
  - intros u v (x & Ix & Lx) L (y & Iy & Ly). destruct (ends x y Ix Iy) as (x0 & xn & v0 & vn & Hh & Hz & DQ & L1 & L2 & L3 & J0 & Jn).
    apply along; auto.
    + intros d Q. injection Q as <-. split; discriminate.
    + unfold sampled_domain, p. cbn [c_dom]. rewrite DQ. apply inter_inside; auto; qc_lra.
  - intros u v h (x & Ix & Lx) L (y & Iy & Ly) Hh' n Fn. destruct (ends x y Ix Iy) as (x0 & xn & v0 & vn & Hh & Hz & DQ & L1 & L2 & L3 & J0 & Jn).
    destruct (pure_sample (Some (i_closed (Fin u) (Fin v))) (Some (Fin h)) (DA _)) as (a' & E & I).
    { intros d Q. injection Q as <-. split; discriminate. }
    assert (WD : sampled_domain p (Some (i_closed (Fin u) (Fin v))) = i_closed (Fin u) (Fin v)).
    { unfold sampled_domain, p. cbn [c_dom]. rewrite DQ. apply inter_inside; auto; qc_lra. }
    rewrite (sample_step_exact p (Some (i_closed (Fin u) (Fin v))) ms f u v h fuel) in E; rewrite ?WD; auto using not_empty.
    2: { cbn [p c_ms]. rewrite RM. intros m' Q. injection Q as <-. now exists M. }
    2: { intros q _ _. apply f_value. }
    rewrite WD in E. cbn [i_closed i_so] in E. exists a'. eexists. split; [exact E|]. split; [|exact I].
    cbn [seq map]. change (QcofZ (Z.of_nat 0)) with (QcofZ 0). replace (u + QcofZ 0 * h)%Qc with u by (rewrite QcofZ_0; ring).
    pose proof (rows_map (u :: map (fun i => (u + QcofZ (Z.of_nat i) * h)%Qc) (seq 1 n))) as SM. cbn [map] in SM. rewrite List.map_map in SM. exact SM.
  - intros d step ID N. destruct (pure_sample (Some d) step (DA _)) as (a' & E & I); [intros d' Q; now injection Q as <-|].
    exists a', []. split; [|split; [constructor|exact I]]. etransitivity; [exact E|]. f_equal. unfold sample_points. fold (sampled_domain p (Some d)). cbv zeta.
    assert (X : i_is_empty (sampled_domain p (Some d)) = true).
    { unfold sampled_domain, p. cbn [c_dom]. destruct (i_is_empty (i_inter2 (pts_domain l) d)) eqn:Q; auto. exfalso.
      assert (OK : iok (pts_domain l)) by (apply iok_pts_domain, Al).
      assert (Q' : i_intersects (pts_domain l) d = true) by (unfold i_intersects; now rewrite Q).
      apply (intersects_iff _ _ OK ID) in Q' as (x & Hx & M1 & M2).
      apply contains_iff in M1; auto. destruct (list_dom_fin l x Al M1) as (q & ->).
      apply list_dom in M1 as (b & e & vb & ve & I1 & I2 & L1 & L2); [|exact Al].
      apply (N b e q); auto; apply ks_in; eauto. }
    change (match Some d with Some d' => i_inter2 (c_dom p) d' | None => c_dom p end) with (sampled_domain p (Some d)). rewrite X. reflexivity.
Qed.
End Along.

Section Top.
Context {V W : Type} {WV : Val xq V} {WW : Val xq W}.
Context (LW : lerp_total (V := W)).
Context (G : list (xq * V) -> xq * V -> W -> W).
Context (m : Qc) (Hm : (0 < m)%Qc) (ip : interp) (post : W -> W) (PN : post v_none = v_none).
Notation own := (Some (Fin m)).
Context (fuel : nat) (c : crv xq V) (t : pts xq W -> xq -> V -> W -> res W) (l : list (xq * V)) (a : acc xq W).
Context (IV : vinv G ip l a) (VW : view m c l) (CT : computes_on G ip t l) (Fl : (length l < fuel)%nat).
Context (ms : option xq) (M : Qc) (SC : strides M c l) (RM : resolve_min_step own ms = Some (Fin M)) (LM : (m <= M)%Qc).
Context (ks : list Qc) (K : map fst l = map Fin ks) (GP : gaps M ks).
Notation qry := (fun a x => snd (acc_y fuel c own t post a x)).
Notation smp := (fun d h => acc_sample fuel c own t post a d ms h).

Let f (q : Qc) : W := match qry a (Fin q) with Ok w => w | Err _ => v_none end.
Lemma f_value q : qry a (Fin q) = Ok (f q).
Proof.
  destruct (vquery_ok LW G m Hm ip post PN fuel c t l a q VW CT IV Fl) as (a' & w & E & VV & _).
  unfold f. rewrite E. reflexivity.
Qed.
Theorem acc_sampled_ok : sampled_along qry a M fuel ks smp.
Proof.
  apply (sampled_ok own fuel l (vw_asc _ _ _ VW) Fl ms M ltac:(qc_lra) RM ks K GP qry a smp f f_value (fun _ => True)); [|auto].
  intros domain step _ ID.
  destruct (acc_sample_pure LW G m Hm ip post PN fuel c t l a
    (mkC (pts_domain l) (qry a) (fun x _ _ => Ok (following l M x)) (fun _ _ _ => Ok None) own) domain ms step M VW CT IV Fl SC RM LM ID) as (a' & E & I'); auto.
  { intros q lim. reflexivity. }
  exists a'. split; [exact E|]. intros x. destruct (vquery_any LW G m Hm ip post PN fuel c t l a a' x VW CT IV I' Fl) as (a2 & E2 & _).
  rewrite E2. reflexivity.
Qed.
End Top.

(** ** The accumulating curves over Points *)
Lemma resolve_ge m ms M : resolve_min_step (Some (Fin m)) ms = Some (Fin M) -> (m <= M)%Qc.
Proof.
  destruct ms as [[k| | |]|]; cbn; unfold n_max, n_gtb; cbn; intros E; try discriminate; try (injection E as ->; apply Qcle_refl).
  destruct (Qcltb k m) eqn:C; injection E as ->; [apply Qcle_refl|now apply Qcltb_false].
Qed.

(** neighbours are more than [M] apart *)
Definition spaced (M : Qc) (d : list (Qc * Qc)) : Prop := forall k, (S k < length d)%nat -> (at_x d k + M < at_x d (S k))%Qc.
Lemma spaced_gaps M d : (0 < M)%Qc -> spaced M d -> gaps M (map fst d).
Proof.
  intros HM. induction d as [|p d IH]; intros S; [constructor|]. cbn [map].
  assert (G : gaps M (map fst d)) by (apply IH; intros k Lk; apply (S (Datatypes.S k)); cbn; lia). constructor; auto.
  destruct d as [|q d]; [constructor|]. assert (L : (fst p + M < fst q)%Qc) by (apply (S 0%nat); cbn; lia). cbn [map] in *.
  constructor; auto. apply StronglySorted_inv in G as [_ F]. eapply Forall_impl; [|exact F]. intros z Lz. cbn in Lz. qc_lra.
Qed.

Section Watched.
Context (G : list (xq * num) -> xq * num -> num -> num) (P : list (xq * num) -> Prop) (m : Qc) (Hm : (0 < m)%Qc) (ip : interp).
Context (tf : pts xq num -> pts xq num -> xq -> num -> num -> res num) (post : num -> num) (TF : tf_ok G P m ip tf).
Lemma watched_sampled fuel s a d ms M : post None = None -> watched P m ip tf post s a -> evenly m s d -> P (dots d) -> (length d < fuel)%nat ->
  resolve_min_step (Some (Fin m)) ms = Some (Fin M) -> spaced M d ->
  sampled_along (fun a x => snd (acc_y fuel (p_crv s) (Some (Fin m)) (tf s) post a x)) a M fuel (map fst d)
    (fun D h => acc_sample fuel (p_crv s) (Some (Fin m)) (tf s) post a D ms h).
Proof.
  intros P0 H (D & EQ & CO) PD L RM SP. pose proof (resolve_ge m ms M RM) as LM.
  destruct (watched_inv lerp_total_num lerp_total_num G P m Hm ip tf post TF P0 s a H) as [GS IV].
  assert (HS : src P m s) by (unfold src; rewrite D; auto).
  apply (acc_sampled_ok lerp_total_num G m Hm ip post P0 fuel (p_crv s) (tf s) (p_pts s) a); auto.
  - split; [apply GS|now rewrite D| |].
    + cbn [p_crv c_dom]. now rewrite (calm_dom s) by apply good_calm, GS.
    + eapply src_serves; eauto. exact lerp_total_num.
  - intros pa k p N Gd I CP. now apply TF.
  - now rewrite D, dots_len.
  - now apply points_strides.
  - rewrite D. unfold dots. rewrite !List.map_map. apply map_ext. now intros [x y].
  - apply spaced_gaps; auto. qc_lra.
Qed.
End Watched.

(* the sampling methods of integral.py, ema.py, accumulator_map.py (inherited
   from scan.py:69-81) *)
Definition integral_sample (half : Qc) (ip : interp) (const m : Qc) (fuel : nat) (s : pts xq num) (a : acc xq num) :=
  acc_sample fuel (p_crv s) (Some (Fin m)) (integral_scan (Fin half) ip (p_y s)) (integral_post (Fin const)) a.
Definition ema_sample (deg : ema_degree xq) (init : option (xq -> res num)) (m : Qc) (fuel : nat) (s : pts xq num) (a : acc xq num) :=
  acc_sample fuel (p_crv s) (Some (Fin m)) (fun _ => ema_scan deg init (fun x => p_x_previous s x (Some (Fin m)) None)) (fun v => v) a.
Definition trailing_sample (deg : map_degree xq) (tfm : xq -> list num -> res num) (n : nat) (m : Qc) (fuel : nat) (s : pts xq num) (a : acc xq num) :=
  acc_sample fuel (p_crv s) (Some (Fin m)) (map_tf deg tfm n m s) (fun v => v) a.

Theorem integral_sampled half ip const m fuel s a d ms M : (half + half = 1)%Qc -> (min_step <= m)%Qc ->
  integral_of half ip const m s a -> evenly m s d -> (length d < fuel)%nat ->
  resolve_min_step (Some (Fin m)) ms = Some (Fin M) -> spaced M d ->
  sampled_along (fun a x => snd (integral_y half ip const m fuel s a x)) a M fuel (map fst d)
    (fun D h => integral_sample half ip const m fuel s a D ms h).
Proof.
  intros Hh Hm H EV L RM SP. assert (M0 : (0 < m)%Qc) by (eapply Qclt_le_trans; [|exact Hm]; reflexivity).
  apply (watched_sampled _ _ m M0 ILinear (fun s => integral_scan (Fin half) ip (p_y s)) (integral_post (Fin const)) (integral_tf_ok half ip m Hh M0)); auto.
  split; [now exists d|]. intros i x y vx vy A B. eapply Qcle_trans; [exact Hm|]. eapply EV; eauto.
Qed.
Theorem ema_sampled deg init wt first m fuel s a d ms M : (0 < m)%Qc -> weight_of deg wt -> first_of init first ->
  ema_of deg init m s a -> evenly m s d -> (length d < fuel)%nat ->
  resolve_min_step (Some (Fin m)) ms = Some (Fin M) -> spaced M d ->
  sampled_along (fun a x => snd (ema_y deg init m fuel s a x)) a M fuel (map fst d)
    (fun D h => ema_sample deg init m fuel s a D ms h).
Proof.
  intros Hm HW HF H EV L RM SP.
  apply (watched_sampled _ _ m Hm ILinear (fun s _ => ema_scan deg init (fun x => p_x_previous s x (Some (Fin m)) None)) (fun v => v)
    (ema_tf_ok deg init wt first m ILinear Hm HW HF)); auto. now exists d.
Qed.
Theorem trailing_sampled deg tfm win g ip n m fuel s a d ms M : (0 < m)%Qc -> window_of deg win -> computes tfm g ->
  trailing_of deg tfm ip n m s a -> evenly m s d -> (length d < fuel)%nat ->
  resolve_min_step (Some (Fin m)) ms = Some (Fin M) -> spaced M d ->
  sampled_along (fun a x => snd (trailing_y deg tfm n m fuel s a x)) a M fuel (map fst d)
    (fun D h => trailing_sample deg tfm n m fuel s a D ms h).
Proof.
  intros Hm HW HC H EV L RM SP.
  apply (watched_sampled _ _ m Hm ip (map_tf deg tfm n m) (fun v => v) (map_tf_ok deg tfm win g m ip n Hm HW HC)); auto. now exists d.
Qed.

(** sampling all of it returns the table that the queries trace *)
Lemma rows_table {A} (qry : A -> xq -> res num) a d ip E r : traces ip (table d E) (qry a) -> rows_at qry a (map fst d) r ->
  snd r = Ok (dots (table d E)).
Proof.
  intros (T & _) (a' & L & -> & F & _). cbn [snd]. f_equal. apply list_nth. intros k.
  assert (LL : length L = length d) by (rewrite <- (map_length fst d); clear T; induction F; cbn; auto).
  destruct (lt_dec k (length d)) as [C|C].
  - rewrite table_len in T. specialize (T k C). rewrite table_x, table_y in T by auto.
    rewrite dots_at by now rewrite table_len. rewrite table_x, table_y by auto.
    destruct (nth_error L k) as [p|] eqn:Nk; [|apply nth_error_None in Nk; lia].
    assert (Q : forall xs L, Forall2 (fun x p => fst p = Fin x /\ qry a (Fin x) = Ok (snd p)) xs L -> forall k x p, nth_error xs k = Some x -> nth_error L k = Some p ->
      fst p = Fin x /\ qry a (Fin x) = Ok (snd p)).
    { clear. induction 1 as [|x p xs L Q F IH]; intros [|k] x' p' N1 N2; try discriminate; cbn in *; [congruence|eauto]. }
    destruct (Q _ _ F k (at_x d k) p) as [Q1 Q2]; auto.
    + rewrite nth_error_map, (at_nth d k C). reflexivity.
    + rewrite T in Q2. injection Q2 as Q2. destruct p as [x y]. cbn in *. congruence.
  - rewrite !(proj2 (nth_error_None _ _)); auto; [rewrite dots_len, table_len|]; lia.
Qed.
Theorem integral_whole half ip const m fuel s a d ms M : (half + half = 1)%Qc -> (min_step <= m)%Qc ->
  integral_of half ip const m s a -> evenly m s d -> (length d < fuel)%nat ->
  resolve_min_step (Some (Fin m)) ms = Some (Fin M) -> spaced M d ->
  snd (integral_sample half ip const m fuel s a None ms None) = Ok (dots (table d (fun k => area_sum ip d 0 k + const)%Qc)).
Proof.
  intros Hh Hm H EV L RM SP.
  exact (rows_table (fun a x => snd (integral_y half ip const m fuel s a x)) a d ILinear _ (integral_sample half ip const m fuel s a None ms None)
    (integral_traces half ip const m fuel s a d Hh Hm H EV L) (proj1 (integral_sampled half ip const m fuel s a d ms M Hh Hm H EV L RM SP))).
Qed.
