(** An accumulating curve over a curve with state: if the source answers like
    the points [l] whatever was asked before, so does the accumulating curve,
    with the accumulated values. *)
From Coq Require Import List ZArith QArith Qcanon Bool Sorting.Sorted Lia Arith.
From Verif Require Import Base Num NumFacts Interval IntervalFacts Curve BaseFacts.
From Verif Require Import Points PointsSpec PointsIdx PointsQuery PointsDom PointsOps PointsMut PointsReset PointsReplace PointsCover PointsHist PointsDec.
From Verif Require Import Combine CombineFacts CombineTop Scan ScanFacts ScanSource ScanInv ScanTf SmaFacts SmaInv ScanTop ScanView ScanSample ScanSampleFacts ScanSampleAcc Tower.
Import ListNotations.

(** ** Lists with the same x *)
Lemma coarse_same {V W} (l : list (xq * V)) (l' : list (xq * W)) M : map fst l = map fst l' -> coarse M l -> coarse M l'.
Proof.
  intros E C i a b va vb N1 N2.
  apply (map_nth_error fst) in N1, N2. rewrite <- E in N1, N2. rewrite nth_error_map in N1, N2.
  destruct (nth_error l i) as [[a' u]|] eqn:X1; [|discriminate]. destruct (nth_error l (S i)) as [[b' w]|] eqn:X2; [|discriminate].
  cbn in N1, N2. injection N1 as ->. injection N2 as ->. eapply C; eauto.
Qed.
Lemma coarse_firstn {V} (l : list (xq * V)) M k : coarse M l -> coarse M (firstn k l).
Proof.
  intros C i a b va vb N1 N2. assert (X : forall j p, nth_error (firstn k l) j = Some p -> nth_error l j = Some p).
  { intros j p X. rewrite <- (firstn_skipn k l), nth_error_app1; auto. apply nth_error_Some. congruence. }
  eapply C; eauto.
Qed.
Lemma coarse_max {V} (l : list (xq * V)) a b : coarse a l -> coarse b l -> coarse (if Qcltb a b then b else a) l.
Proof. intros A B. destruct (Qcltb a b); auto. Qed.
Lemma resolve_max a b : resolve_min_step (Some (Fin a)) (Some (Fin b)) = Some (Fin (if Qcltb b a then a else b)).
Proof. cbn [resolve_min_step]. unfold n_max, n_gtb. cbn [n_ltb XQ xq_ltb]. now destruct (Qcltb b a). Qed.

(** No point is at zero, which Python takes for false. *)
Definition nonzero {V} (l : list (xq * V)) : Prop := forall p, In p l -> fst p <> Fin 0%Qc.

(** ** Curves with state that show the points [l] *)
Section Ready.
Context {St : Type} (sc : scrv xq St) (I : St -> Prop) (upto : St -> nat -> Prop).
Definition grows (s s' : St) : Prop := I s' /\ forall j, upto s j -> upto s' j.
(** in every state of [I]: the domain is that of [l], the values are those of
    [Vr], which at the points of [l] are their own, and
    x_next finds its points; x_previous finds the previous one at a point up to
    which the curve has been evaluated, provided [Z] *)
Record ready (Vr : Qc -> num -> Prop) (l : list (xq * num)) (F : Qc) (Z : Prop) : Prop := {
  rd_dom : forall s, I s -> exists s', sc_dom sc s = (s', Ok (pts_domain l)) /\ grows s s';
  rd_y : forall s q, I s -> exists s' v, sc_y sc (Fin q) s = (s', Ok v) /\ Vr q v /\ grows s s' /\
    (forall k w, nth_error l k = Some (Fin q, w) -> upto s' k);
  rd_any : forall s x, I s -> grows s (fst (sc_y sc x s));
  rd_next : forall s k p M lim, I s -> (0 < M)%Qc -> coarse M l -> nth_error l k = Some p ->
    sc_next sc (fst p) (Some (Fin M)) lim s = (s, Ok (option_map fst (nth_error l (S k))));
  rd_follow : forall s q M lim, I s -> (F <= M)%Qc -> sc_next sc (Fin q) (Some (Fin M)) lim s = (s, Ok (following l M (Fin q)));
  rd_first : forall s p M, I s -> (0 < M)%Qc -> nth_error l 0 = Some p -> sc_prev sc (fst p) (Some (Fin M)) None s = (s, Ok None);
  rd_prev : Z -> forall s k p M, I s -> upto s (S k) -> (0 < M)%Qc -> coarse M l -> nth_error l (S k) = Some p ->
    sc_prev sc (fst p) (Some (Fin M)) None s = (s, Ok (option_map fst (nth_error l k)));
  rd_knot : forall q v w, In (Fin q, w) l -> Vr q v -> v = w
}.
End Ready.

Lemma grows_refl {St} (I : St -> Prop) upto s : I s -> grows I upto s s.
Proof. split; auto. Qed.
Lemma grows_trans {St} (I : St -> Prop) upto s t u : grows I upto s t -> grows I upto t u -> grows I upto s u.
Proof. intros [_ A] [B C]. split; auto. Qed.

Section Over.
Context {S0 : Type} (src : scrv xq S0) (I : S0 -> Prop) (upto : S0 -> nat -> Prop) (Vr : Qc -> num -> Prop) (l : list (xq * num)) (F : Qc) (Z : Prop).
Context (RD : ready src I upto Vr l F Z) (A : ascending l) (ES : equally_spaced l).
Context (m : Qc) (Hm : (0 < m)%Qc) (CM : coarse m l).
Context (G : list (xq * num) -> xq * num -> num -> num) (tf : pts xq num -> xq -> num -> num -> sr S0 num).
Notation own := (Some (Fin m)).
Notation grw := (grows I upto).
(** the transform computes [G], asking the source as it likes *)
Definition tf_does : Prop := forall s pa k p, I s -> upto s k -> nth_error l k = Some p -> good pa -> p_interp pa = ILinear ->
  p_pts pa = spec G (firstn k l) ->
  exists s', tf pa (fst p) (snd p) (lastv v_none (p_pts pa)) s = (s', Ok (G (firstn k l) p (lastv v_none (p_pts pa)))) /\ grw s s'.
Context (TF : tf_does).

Notation state' := (state G ILinear l).
Notation core' := (core G ILinear l).

Lemma last_read k pa p : core' k pa -> nth_error l k = Some p ->
  (if i_is_empty (p_dom pa) then Ok v_none
   else if negb (n_ltb (i_end (p_dom pa)) (fst p)) then Err EAssert
   else p_y pa (i_end (p_dom pa))) = Ok (lastv v_none (p_pts pa)).
Proof.
  intros C N. pose proof C as [L CP Gd Fo Ip].
  assert (D : p_dom pa = pts_domain (p_pts pa)) by (apply calm_dom, good_calm, Gd).
  assert (AS : ascending (spec G (firstn (S k) l))).
  { eapply ascending_xs; [symmetry; apply spec_xs|]. now apply ascending_firstn. }
  pose proof (firstn_snoc _ _ _ N) as FS. rewrite FS, spec_snoc, <- CP in AS.
  rewrite D. destruct (p_pts pa) as [|r rs] eqn:E; [reflexivity|].
  assert (NE : i_is_empty (pts_domain (r :: rs)) = false).
  { destruct (i_is_empty (pts_domain (r :: rs))) eqn:X; auto. apply pts_domain_empty_iff in X; [discriminate|].
    rewrite <- E. apply Gd. }
  rewrite NE. destruct (last_opt_cons r rs) as [z Z0].
  assert (EN : i_end (pts_domain (r :: rs)) = fst z).
  { unfold pts_domain. cbn [head_opt]. rewrite Z0. reflexivity. }
  rewrite EN. unfold lastv. rewrite Z0.
  assert (Lz : lt_x (fst z) (fst p)).
  { change (fst p) with (fst (fst p, G (firstn k l) p (lastv v_none (r :: rs)))).
    apply ascending_app_iff in AS. apply AS; [now apply last_opt_in|now left]. }
  unfold lt_x in Lz. cbn [n_ltb XQ]. rewrite Lz. cbn [negb].
  destruct (ascending_fin (p_pts pa) z) as (qz & wz & ->); [apply Gd|rewrite E; now apply last_opt_in|].
  cbn [fst snd]. apply p_y_knot; auto; [intros _; exact lerp_total_num|]. rewrite E. now apply last_opt_in.
Qed.

Lemma st_acc_ok s a k p : I s -> upto s k -> core' k (a_pts a) -> nth_error l k = Some p ->
  exists s' a', st_accumulate tf (fst p) (snd p) (s, a) = ((s', a'), Ok tt) /\ grw s s' /\ core' (S k) (a_pts a') /\
    a_cur a' = a_cur a /\ a_start a' = a_start a /\ a_upd a' = a_upd a.
Proof.
  intros Is U C N. pose (t := fun (pa : pts xq num) (x : xq) (y last : num) => Ok (G (firstn k l) p last)).
  apply core_touch in C. pose proof (last_read k _ p C N) as LY. pose proof C as [L CP Gd Fo Ip].
  destruct (TF s (p_touch (a_pts a)) k p Is U N Gd Ip CP) as (s' & E & GR).
  assert (Lk : (k < length l)%nat) by (apply nth_error_Some; congruence).
  destruct (asc_fin _ _ _ A N) as [q Q].
  assert (AS : ascending (spec G (firstn (S k) l))).
  { eapply ascending_xs; [symmetry; apply spec_xs|]. now apply ascending_firstn. }
  assert (EQS : equally_spaced (spec G (firstn (S k) l))).
  { eapply equally_xs2; [symmetry; apply spec_xs|]. now apply equally_firstn. }
  pose proof (firstn_snoc _ _ _ N) as FS. rewrite FS, spec_snoc, <- CP in AS, EQS.
  assert (FP : fst p = Fin q) by (rewrite Q; reflexivity).
  unfold st_accumulate, sbind, of_acc, of_src, get_acc. cbn [fst snd a_pts set_apts].
  rewrite LY. cbv beta iota. cbn [fst snd]. rewrite E. cbn [fst snd a_pts set_apts]. rewrite FP in *.
  destruct (p_append_next _ q _ Gd Fo AS EQS) as (pa' & evs & X & PP & G' & F' & I').
  rewrite X. eexists s', _. split; [reflexivity|]. split; [exact GR|]. cbn. split; [|auto].
  split; auto; [|congruence]. rewrite PP, FS, spec_snoc, CP, FP. reflexivity.
Qed.

Lemma st_dom_ok s a k : I s -> vupd l a -> state' a k ->
  exists s' a', st_dom src (s, a) = ((s', a'), Ok (pts_domain l)) /\ grw s s' /\ vupd l a' /\ state' a' k.
Proof.
  intros Is U St. unfold st_dom. cbn [snd]. destruct U as [Id D]. destruct (u_dom (a_upd a)) as [d|] eqn:E.
  - destruct D as [D|D]; [discriminate|]. injection D as ->. exists s, a. split; [reflexivity|].
    split; [now apply grows_refl|]. split; auto. split; auto.
  - destruct (rd_dom _ _ _ _ _ _ _ RD s Is) as (s' & E' & GR). unfold sbind, of_src, of_acc. cbn [fst snd]. rewrite E'. cbn [fst snd].
    unfold acc_dom. rewrite E. eexists _, _. split; [reflexivity|]. split; [exact GR|]. split; [split; [exact Id|now right]|].
    destruct St; split; auto.
Qed.

Lemma dom_knot p : In p l -> i_contains (pts_domain l) (fst p) = true.
Proof. intros H. destruct (ascending_fin _ _ A H) as (q & v & ->). apply list_dom; auto. exists q, q, v, v. repeat split; auto; apply Qcle_refl. Qed.

Lemma st_init_ok s a x k : I s -> vupd l a -> state' a k -> l <> [] ->
  exists s' a' p, st_init src own x (s, a) = ((s', a'), Ok (Some (fst p))) /\ head_opt l = Some p /\ grw s s' /\ vupd l a' /\ state' a' k.
Proof.
  intros Is U St NE. destruct (head_opt_some _ NE) as [p Hp]. destruct (last_opt_some _ NE) as [z Hz].
  destruct (rd_dom _ _ _ _ _ _ _ RD s Is) as (s1 & E1 & GR1).
  destruct (st_dom_ok s1 a k (proj1 GR1) U St) as (s' & a' & E & GR & U' & St').
  exists s', a', p. split; [|split; [exact Hp|split; [eapply grows_trans; eauto|auto]]].
  unfold st_init, sbind at 1, of_src at 1. cbn [fst snd]. rewrite E1.
  assert (NE' : i_is_empty (pts_domain l) = false).
  { destruct (i_is_empty (pts_domain l)) eqn:X; auto. apply pts_domain_empty_iff in X; auto. congruence. }
  pose proof (ends_ok _ _ _ A Hp Hz) as EO. destruct (ascending_fin _ p A (head_opt_in _ _ Hp)) as (q & v & EP).
  assert (SD : i_start (pts_domain l) = fst p) by (rewrite EO; reflexivity).
  assert (NI : i_is_negative_infinite (pts_domain l) = false) by (rewrite EO, EP; reflexivity).
  rewrite NE', NI. cbn [orb]. rewrite SD. unfold sbind. rewrite E. rewrite (dom_knot p (head_opt_in _ _ Hp)). reflexivity.
Qed.

Lemma src_knot s k p : I s -> nth_error l k = Some p ->
  exists s', sc_y src (fst p) s = (s', Ok (snd p)) /\ grw s s' /\ upto s' k.
Proof.
  intros Is N. destruct (asc_fin _ _ _ A N) as [q Q]. destruct p as [x v]. cbn in Q. injection Q as ->. cbn [fst snd].
  destruct (rd_y _ _ _ _ _ _ _ RD s q Is) as (s' & w & E & VV & GR & UP). exists s'. split; [|split; [exact GR|now apply (UP k v)]].
  rewrite E. do 2 f_equal. eapply (rd_knot _ _ _ _ _ _ _ RD); [|exact VV]. eapply nth_error_In; eauto.
Qed.

(** ** Steps *)
Lemma own_max M : (0 < M)%Qc -> (0 < if Qcltb M m then m else M)%Qc.
Proof. intros H. now destruct (Qcltb M m). Qed.

Lemma st_next_knot s a k0 k p M lim : I s -> state' a k0 -> (0 < M)%Qc -> coarse M l -> nth_error l k = Some p ->
  st_next src own (fst p) (Some (Fin M)) lim (s, a) = ((s, a), Ok (option_map fst (nth_error l (S k)))).
Proof.
  intros Is St HM C N. destruct (asc_fin _ _ _ A N) as [q Q]. destruct p as [x v]. cbn in Q. injection Q as ->. cbn [fst].
  unfold st_next, st_step. rewrite resolve_max. set (M' := if Qcltb M m then m else M).
  assert (HM' : (0 < M')%Qc) by now apply own_max. assert (C' : coarse M' l) by (unfold M'; destruct (Qcltb M m); auto).
  unfold sbind, get_acc. cbn [snd]. pose proof (st_core _ _ _ _ _ St) as CO.
  rewrite p_next_following by apply CO.
  assert (EF : following l M' (Fin q) = option_map fst (nth_error l (S k))).
  { eapply least_unique; [exact A| |apply (find_least l (q + M')%Qc A)|]; [discriminate|]. now apply next_least with (v := v). }
  assert (FAR : of_src (sc_next src (Fin q) (Some (Fin M')) lim) (s, a) = ((s, a), Ok (option_map fst (nth_error l (S k))))).
  { unfold of_src. cbn [fst snd]. pose proof (rd_next _ _ _ _ _ _ _ RD s k (Fin q, v) M' lim Is HM' C' N) as X. cbn [fst] in X. now rewrite X. }
  destruct (following (p_pts (a_pts a)) M' (Fin q)) as [y|] eqn:FN; [|exact FAR].
  assert (X : following l M' (Fin q) = Some y).
  { unfold following in FN |- *. rewrite (co_pts _ _ _ _ _ CO), spec_xs in FN. rewrite <- (firstn_skipn k0 l), map_app, find_app. now rewrite FN. }
  destruct (n_eqb y n_zero); [exact FAR|]. unfold sret. now rewrite <- X, EF.
Qed.

Lemma st_follow_ok s a k0 q M lim : I s -> state' a k0 -> (F <= M)%Qc -> (m <= M)%Qc ->
  st_next src own (Fin q) (Some (Fin M)) lim (s, a) = ((s, a), Ok (following l M (Fin q))).
Proof.
  intros Is St L1 L2. unfold st_next, st_step. rewrite resolve_max. rewrite (proj2 (Qcltb_false _ _) L2).
  unfold sbind, get_acc. cbn [snd]. pose proof (st_core _ _ _ _ _ St) as CO.
  rewrite p_next_following by apply CO.
  assert (FAR : of_src (sc_next src (Fin q) (Some (Fin M)) lim) (s, a) = ((s, a), Ok (following l M (Fin q)))).
  { unfold of_src. cbn [fst snd]. now rewrite (rd_follow _ _ _ _ _ _ _ RD s q M lim Is L1). }
  destruct (following (p_pts (a_pts a)) M (Fin q)) as [y|] eqn:FN; [|exact FAR].
  assert (X : following l M (Fin q) = Some y).
  { unfold following in FN |- *. rewrite (co_pts _ _ _ _ _ CO), spec_xs in FN. rewrite <- (firstn_skipn k0 l), map_app, find_app. now rewrite FN. }
  destruct (n_eqb y n_zero); [exact FAR|]. unfold sret. now rewrite <- X.
Qed.

Lemma st_first_ok s a k0 p M : I s -> state' a k0 -> (0 < M)%Qc -> nth_error l 0 = Some p ->
  st_prev src own (fst p) (Some (Fin M)) None (s, a) = ((s, a), Ok None).
Proof.
  intros Is St HM N. destruct (asc_fin _ _ _ A N) as [q Q]. destruct p as [x v]. cbn in Q. injection Q as ->. cbn [fst].
  unfold st_prev, st_step. rewrite resolve_max. set (M' := if Qcltb M m then m else M).
  assert (HM' : (0 < M')%Qc) by now apply own_max.
  unfold sbind, get_acc. cbn [snd]. pose proof (st_core _ _ _ _ _ St) as CO.
  assert (FAR : of_src (sc_prev src (Fin q) (Some (Fin M')) None) (s, a) = ((s, a), Ok None)).
  { unfold of_src. cbn [fst snd]. pose proof (rd_first _ _ _ _ _ _ _ RD s (Fin q, v) M' Is HM' N) as X. cbn [fst] in X. now rewrite X. }
  destruct (p_x_previous_spec (a_pts a) (Fin q) M' None (co_good _ _ _ _ _ CO) ltac:(discriminate)) as (y & E & Q). rewrite E.
  destruct y as [y|]; [|exact FAR]. exfalso. destruct Q as ((w & J) & L & _).
  assert (J' : exists w', In (y, w') l).
  { apply (in_map fst) in J. rewrite (co_pts _ _ _ _ _ CO), spec_xs in J. apply in_map_iff in J as ([y' w'] & E' & J). cbn in E'. subst y'.
    exists w'. rewrite <- (firstn_skipn k0 l). apply in_or_app. now left. }
  destruct J' as (w' & J'). destruct (ascending_fin _ _ A J') as (r & u & X). injection X as -> ->.
  pose proof (ascending_head_le l (Fin q, v) (Fin r, u) A) as B. assert (HH : head_opt l = Some (Fin q, v)) by (destruct l; [discriminate|exact N]).
  specialize (B HH J'). cbn [fst] in B. apply le_x_fin in B. cbn [xq_sub] in L. apply le_x_fin in L. clear -HM' B L. qc_lra.
Qed.

(** x_previous is right at a point at zero only if the source knows it *)
Definition zero_ok : Prop := nonzero l \/ (Z /\ forall s j, I s -> upto s j).
Lemma st_prev_ok s a k0 k p M : zero_ok -> I s -> state' a k0 -> (S k < k0)%nat -> (0 < M)%Qc -> coarse M l -> nth_error l (S k) = Some p ->
  st_prev src own (fst p) (Some (Fin M)) None (s, a) = ((s, a), Ok (option_map fst (nth_error l k))).
Proof.
  intros NZ Is St Lk HM C N. destruct (asc_fin _ _ _ A N) as [q Q]. destruct p as [x v]. cbn in Q. injection Q as ->. cbn [fst].
  unfold st_prev, st_step. rewrite resolve_max. set (M' := if Qcltb M m then m else M).
  assert (HM' : (0 < M')%Qc) by now apply own_max. assert (C' : coarse M' l) by (unfold M'; destruct (Qcltb M m); auto).
  unfold sbind, get_acc. cbn [snd]. pose proof (st_core _ _ _ _ _ St) as CO.
  assert (XS : map fst (p_pts (a_pts a)) = map fst (firstn k0 l)) by (rewrite (co_pts _ _ _ _ _ CO); apply spec_xs).
  assert (LL : (S k < length l)%nat) by (apply nth_error_Some; congruence).
  assert (AT : forall j, (j < k0)%nat -> nth_error (map fst (p_pts (a_pts a))) j = nth_error (map fst l) j).
  { intros j J. rewrite XS. rewrite <- (firstn_skipn k0 l) at 2. rewrite map_app. symmetry. destruct (lt_dec j (length l)) as [J'|J'].
    - apply nth_error_app1. rewrite map_length, firstn_length. lia.
    - rewrite !(proj2 (nth_error_None _ _)); auto; rewrite ?app_length, ?map_length, ?firstn_length, ?skipn_length; lia. }
  pose proof (AT (S k) Lk) as N1. rewrite !nth_error_map, N in N1. cbn [option_map fst] in N1.
  destruct (nth_error (p_pts (a_pts a)) (S k)) as [[x w]|] eqn:N2; [|discriminate]. cbn in N1. injection N1 as ->.
  assert (CC : coarse M' (p_pts (a_pts a))) by (eapply coarse_same; [symmetry; exact XS|now apply coarse_firstn]).
  rewrite (knot_previous (a_pts a) M' k q w None (co_good _ _ _ _ _ CO) CC HM' N2).
  pose proof (AT k ltac:(lia)) as N3. rewrite !nth_error_map in N3. rewrite N3.
  destruct (nth_error l k) as [[y u]|] eqn:N4; [|apply nth_error_None in N4; lia]. cbn [option_map fst].
  destruct (n_eqb y n_zero) eqn:Y0; [|reflexivity]. destruct NZ as [NZ|[HZ HU]].
  2: { pose proof (rd_prev _ _ _ _ _ _ _ RD HZ s k (Fin q, v) M' Is (HU s (S k) Is) HM' C' N) as X. cbn [fst] in X.
       unfold of_src. cbn [fst snd]. rewrite X, N4. reflexivity. }
  exfalso. apply (NZ (y, u)); [eapply nth_error_In; eauto|].
  cbn [fst]. change (n_zero : xq) with (Fin 0%Qc) in Y0. destruct y as [y| | |]; try discriminate. cbn in Y0. apply Qceqb_true in Y0. now subst.
Qed.

(** ** The scan *)
Lemma st_loop_ok q : span l q -> forall fuel s a k, I s -> vupd l a -> state' a k -> (length l - k < fuel)%nat ->
  exists s' a' k', st_loop src own fuel tf (Fin q) (s, a) = ((s', a'), Ok tt) /\ grw s s' /\ vupd l a' /\ state' a' k' /\ reaches l q k' /\ (k <= k')%nat.
Proof.
  intros SP. induction fuel as [|f IH]; intros s a k Is U St Lf; [lia|].
  cbn [st_loop]. unfold sbind at 1, get_acc at 1. cbn [snd]. pose proof (st_cur _ _ _ _ _ St) as CUR.
  pose proof (co_len _ _ _ _ _ (st_core _ _ _ _ _ St)) as Lk.
  assert (STEP : forall s1 a1 p, nth_error l k = Some p -> I s1 -> grw s s1 -> vupd l a1 -> core' k (a_pts a1) ->
    a_start a1 = option_map fst (head_opt (firstn (S k) l)) ->
    exists s' a' k', sbind (of_src (sc_y src (fst p))) (fun y => sbind (st_accumulate tf (fst p) y) (fun _ =>
        sbind (of_acc (fun a => (set_cur a (Some (fst p)), Ok tt))) (fun _ => st_loop src own f tf (Fin q)))) (s1, a1) = ((s', a'), Ok tt) /\
      grw s s' /\ vupd l a' /\ state' a' k' /\ reaches l q k' /\ (k <= k')%nat).
  { intros s1 a1 p N Is1 G1 U1 C1 S1. destruct (src_knot s1 k p Is1 N) as (s2 & E2 & G2 & UP).
    unfold sbind at 1, of_src. cbn [fst snd]. rewrite E2.
    destruct (st_acc_ok s2 a1 k p (proj1 G2) UP C1 N) as (s3 & a3 & E3 & G3 & C3 & _ & S3 & U3).
    unfold sbind at 1. rewrite E3. unfold sbind at 1, of_acc at 1. cbn [fst snd].
    assert (Lk' : (k < length l)%nat) by (apply nth_error_Some; congruence).
    destruct (IH s3 (set_cur a3 (Some (fst p))) (S k)) as (s' & a' & k' & E' & G' & U' & St' & R' & L').
    - apply G3.
    - unfold vupd. cbn [a_upd set_cur]. rewrite U3. exact U1.
    - split; [exact C3| |]; cbn [set_cur a_cur a_start].
      + rewrite last_firstn by auto. now rewrite N.
      + congruence.
    - lia.
    - exists s', a', k'. split; [exact E'|]. split; [|split; [|split; [|split]]]; auto; [|lia].
      eapply grows_trans; [exact G1|]. eapply grows_trans; [exact G2|]. eapply grows_trans; eauto. }
  destruct k as [|j].
  - cbn [firstn last_opt rev head_opt option_map] in CUR. rewrite CUR.
    destruct (st_init_ok s a (Fin q) 0 Is U St) as (s1 & a1 & p & E1 & Hp & G1 & U1 & St1); [now apply span_nonempty with q|].
    unfold sbind at 1. unfold sbind at 1. rewrite E1. unfold sbind at 1, of_acc at 1, sret at 1. cbn [fst snd].
    destruct (rd_dom _ _ _ _ _ _ _ RD s1 (proj1 G1)) as (s2 & E2 & G2).
    unfold sbind at 1, of_src at 1. cbn [fst snd]. rewrite E2, (dom_knot p (head_opt_in _ _ Hp)). cbn [negb].
    apply STEP.
    + destruct l; [discriminate|exact Hp].
    + apply G2.
    + eapply grows_trans; eauto.
    + exact U1.
    + exact (st_core _ _ _ _ _ St1).
    + cbn. destruct l; [discriminate|]. cbn. now injection Hp as ->.
  - rewrite last_firstn in CUR by lia. destruct (nth_error l j) as [z|] eqn:NZ; [|apply nth_error_None in NZ; lia].
    cbn [option_map] in CUR. rewrite CUR. destruct (asc_fin _ _ _ A NZ) as [qz QZ].
    destruct (n_ltb (fst z) (Fin q)) eqn:CL.
    + unfold sbind at 1. rewrite (st_next_knot s a (S j) j z m _ Is St Hm CM NZ).
      destruct (nth_error l (S j)) as [p|] eqn:N.
      2: { exfalso. apply nth_error_None in N. destruct SP as (b & d & vb & vc & _ & I2 & _ & L2).
           apply In_nth_error in I2. destruct I2 as [i I2].
           assert (Li : (i < length l)%nat) by (apply nth_error_Some; congruence).
           assert (LX : le_x (Fin d) (fst z)).
           { destruct (Nat.eq_dec i j) as [->|Ne].
             - rewrite NZ in I2. injection I2 as ->. apply le_x_refl. discriminate.
             - pose proof (asc_nth _ _ _ _ _ A I2 NZ ltac:(lia)) as X. rewrite QZ in *. cbn [fst] in *.
               apply lt_x_fin in X. apply le_x_fin. qc_lra. }
           rewrite QZ in *. cbn [fst] in *. change (lt_x (Fin qz) (Fin q)) in CL. apply lt_x_fin in CL. apply le_x_fin in LX. qc_lra. }
      cbn [option_map]. assert (Ip : In p l) by (eapply nth_error_In; eauto).
      destruct (rd_dom _ _ _ _ _ _ _ RD s Is) as (s2 & E2 & G2).
      unfold sbind at 1, of_src at 1. cbn [fst snd]. rewrite E2, (dom_knot p Ip). cbn [negb].
      pose proof (asc_nth _ _ _ _ _ A NZ N ltac:(lia)) as LT.
      assert (NL : n_leb (fst p) (fst z) = false).
      { destruct (asc_fin _ _ _ A N) as [qp QP]. rewrite QP, QZ in *. cbn [fst] in *. apply lt_x_fin in LT.
        destruct (n_leb (Fin qp) (Fin qz)) eqn:X; auto. change (le_x (Fin qp) (Fin qz)) in X. apply le_x_fin in X. exfalso. qc_lra. }
      rewrite NL. apply STEP; auto; [apply G2|apply St|].
      rewrite (st_start _ _ _ _ _ St). destruct l; reflexivity.
    + exists s, a, (S j). split; [reflexivity|]. split; [now apply grows_refl|]. split; [exact U|]. split; [exact St|]. split; [|lia].
      exists z. rewrite last_firstn by lia. split; [exact NZ|]. rewrite QZ in *. cbn [fst] in *.
      apply le_x_fin. destruct (Qclt_le_dec qz q) as [X|X]; auto.
      apply lt_x_fin in X. unfold lt_x in X. cbn in CL, X. congruence.
Qed.

Context (post : num -> num) (PN : post None = None).
Definition oinv (t : S0 * acc xq num) : Prop := I (fst t) /\ vinv G ILinear l (snd t).
Definition oupto (t : S0 * acc xq num) (j : nat) : Prop := exists k, state' (snd t) k /\ (j < k)%nat.
Definition image (l : list (xq * num)) : list (xq * num) := map (fun p => (fst p, post (snd p))) (spec G l).

Lemma image_xs l0 : map fst (image l0) = map fst l0.
Proof. unfold image. rewrite List.map_map. cbn. apply spec_xs. Qed.
Lemma image_nth k p : nth_error (image l) k = Some p -> exists v, nth_error l k = Some (fst p, v).
Proof.
  intros N. apply (map_nth_error fst) in N. rewrite image_xs, nth_error_map in N.
  destruct (nth_error l k) as [[x v]|]; [|discriminate]. cbn in N. injection N as <-. eauto.
Qed.
Lemma state_unique a k k' : state' a k -> state' a k' -> k = k'.
Proof.
  intros S1 S2. pose proof (co_pts _ _ _ _ _ (st_core _ _ _ _ _ S1)) as E1. pose proof (co_pts _ _ _ _ _ (st_core _ _ _ _ _ S2)) as E2.
  rewrite E1 in E2. apply (f_equal (@length _)) in E2. rewrite !spec_length, !firstn_length in E2.
  pose proof (co_len _ _ _ _ _ (st_core _ _ _ _ _ S1)). pose proof (co_len _ _ _ _ _ (st_core _ _ _ _ _ S2)). lia.
Qed.
Lemma ogrows s a s' a' k k' : grw s s' -> vupd l a' -> state' a k -> state' a' k' -> (k <= k')%nat -> grows oinv oupto (s, a) (s', a').
Proof.
  intros [G1 _] U S1 S2 L. split; [split; [exact G1|split; eauto]|]. intros j (k0 & S0' & J). cbn [snd] in *.
  rewrite (state_unique a k0 k S0' S1) in J. exists k'. split; [exact S2|lia].
Qed.

Notation query fuel := (st_y src own fuel tf post).

Lemma st_out_ok fuel s a x : I s -> vinv G ILinear l a -> i_contains (pts_domain l) x = false ->
  exists t, query fuel x (s, a) = (t, Ok None) /\ grows oinv oupto (s, a) t.
Proof.
  intros Is (U & k & St) IC. destruct (rd_dom _ _ _ _ _ _ _ RD s Is) as (s1 & E1 & G1).
  destruct (st_dom_ok s1 a k (proj1 G1) U St) as (s2 & a2 & E2 & G2 & U2 & St2).
  exists (s2, a2). split; [|eapply ogrows; eauto; eapply grows_trans; eauto].
  unfold st_y, sbind at 1, of_src at 1. cbn [fst snd]. rewrite E1, IC. cbn [negb]. unfold sbind. rewrite E2. unfold sret. rewrite IC. reflexivity.
Qed.

Lemma st_y_ok fuel s a q : I s -> vinv G ILinear l a -> (length l < fuel)%nat ->
  exists t v, query fuel (Fin q) (s, a) = (t, Ok (post v)) /\ value ILinear (spec G l) q v /\ grows oinv oupto (s, a) t /\
    (forall k w, nth_error l k = Some (Fin q, w) -> oupto t k).
Proof.
  intros Is V Lf. destruct (i_contains (pts_domain l) (Fin q)) eqn:IC.
  - apply list_dom in IC as SP; auto. destruct V as (U & k & St).
    destruct (rd_dom _ _ _ _ _ _ _ RD s Is) as (s1 & E1 & G1).
    destruct (st_loop_ok q SP fuel s1 a k (proj1 G1) U St) as (s2 & a2 & k2 & E2 & G2 & U2 & St2 & R2 & L2); [lia|].
    assert (NR : st_scan src own fuel tf (Fin q) (s1, a) = ((s2, a2), Ok tt)).
    { unfold st_scan, sbind at 1, get_acc at 1. cbn [snd]. rewrite (st_start _ _ _ _ _ St).
      destruct (head_opt (firstn k l)) as [p|] eqn:Hp; cbn [option_map]; [|exact E2].
      assert (Hp' : head_opt l = Some p) by (destruct k, l; try discriminate; exact Hp).
      destruct SP as (b & d & vb & vc & I1 & _ & L1 & _).
      pose proof (ascending_head_le _ _ _ A Hp' I1) as LE. cbn [fst] in LE.
      destruct (ascending_fin _ p A (head_opt_in _ _ Hp')) as (r & v & ->). cbn [fst] in *. apply le_x_fin in LE.
      destruct (n_ltb (Fin q) (Fin r)) eqn:X; [|exact E2]. change (lt_x (Fin q) (Fin r)) in X. apply lt_x_fin in X.
      exfalso. qc_lra. }
    destruct (p_y_value (a_pts a2) q) as (v & Y & VV); [intros _; exact lerp_total_num|apply St2|].
    exists (s2, a2), v. split; [|split; [|split]].
    + unfold st_y, sbind at 1, of_src at 1. cbn [fst snd]. rewrite E1, IC. cbn [negb]. unfold sbind, sret, get_acc. rewrite NR. cbn [snd]. now rewrite Y.
    + rewrite (co_interp _ _ _ _ _ (st_core _ _ _ _ _ St2)) in VV. eapply reached_value; eauto.
    + eapply ogrows; eauto. eapply grows_trans; eauto.
    + intros i w N. exists k2. split; [exact St2|]. destruct R2 as (z & Z2 & Lz).
      apply Nat.lt_nge. intros Ge. destruct k2 as [|j]; [discriminate|].
      rewrite last_firstn in Z2 by (pose proof (co_len _ _ _ _ _ (st_core _ _ _ _ _ St2)); lia).
      pose proof (asc_nth _ _ _ _ _ A Z2 N ltac:(lia)) as LT. destruct (asc_fin _ _ _ A Z2) as [qz QZ]. rewrite QZ in *. cbn [fst] in *.
      apply lt_x_fin in LT. apply le_x_fin in Lz. qc_lra.
  - destruct (st_out_ok fuel s a (Fin q) Is V IC) as (t & E & GR). exists t, None. rewrite PN.
    split; [exact E|]. split; [|split; [exact GR|]].
    + change (None : num) with (v_none : num). apply value_none.
      * intros (b & d & vb & vc & I1 & I2 & L1 & L2).
        apply (in_map fst) in I1, I2. rewrite spec_xs in I1, I2. apply in_map_iff in I1, I2.
        destruct I1 as ([x1 w1] & E1 & I1), I2 as ([x2 w2] & E2 & I2). cbn [fst] in *. subst.
        assert (SP : span l q) by (exists b, d, w1, w2; auto). apply list_dom in SP; auto. congruence.
      * eapply ascending_xs; [symmetry; apply spec_xs|exact A].
    + intros k w N. exfalso. apply nth_error_In in N. apply dom_knot in N. cbn [fst] in N. congruence.
Qed.

(** the value after [post] *)
Context (PV : forall q v, value ILinear (spec G l) q v -> value ILinear (image l) q (post v)).

Theorem over_ready fuel : (length l < fuel)%nat ->
  ready (mkSC (st_dom src) (query fuel) (st_next src own) (st_prev src own)) oinv oupto (value ILinear (image l)) (image l) (if Qcltb F m then m else F) zero_ok.
Proof.
  intros Lf.
  assert (ED : pts_domain (image l) = pts_domain l).
  { pose proof (image_xs l) as X. unfold pts_domain.
    assert (H1 : option_map fst (head_opt (image l)) = option_map fst (head_opt l)) by (destruct (image l), l; cbn in *; congruence).
    assert (H2 : option_map fst (last_opt (image l)) = option_map fst (last_opt l)) by now apply last_xs.
    destruct (head_opt (image l)), (head_opt l), (last_opt (image l)), (last_opt l); cbn in *; congruence. }
  assert (SX : forall k, option_map fst (nth_error (image l) k) = option_map fst (nth_error l k)).
  { intros k. rewrite <- !nth_error_map. now rewrite image_xs. }
  split; cbn [sc_dom sc_y sc_next sc_prev].
  - intros [s a] [Is (U & k & St)]. cbn [fst snd] in *. destruct (st_dom_ok s a k Is U St) as (s' & a' & E & G1 & U' & St').
    exists (s', a'). rewrite ED. split; [exact E|]. eapply ogrows; eauto.
  - intros [s a] q [Is V]. cbn [fst snd] in *. destruct (st_y_ok fuel s a q Is V Lf) as (t & v & E & VV & GR & UP).
    exists t, (post v). split; [exact E|]. split; [auto|]. split; [exact GR|]. intros k w N.
    destruct (image_nth k _ N) as (v' & N'). apply (UP k v'). exact N'.
  - intros [s a] x [Is V]. cbn [fst snd] in *. destruct (i_contains (pts_domain l) x) eqn:IC.
    + destruct (list_dom_fin l x A IC) as [q ->]. destruct (st_y_ok fuel s a q Is V Lf) as (t & v & E & _ & GR & _). rewrite E. exact GR.
    + destruct (st_out_ok fuel s a x Is V IC) as (t & E & GR). rewrite E. exact GR.
  - intros [s a] k p M lim [Is (U & k0 & St)] HM C N. cbn [fst snd] in *. destruct (image_nth k p N) as (v & N').
    rewrite (SX (S k)). apply (st_next_knot s a k0 k (fst p, v) M lim); auto. eapply coarse_same; [apply image_xs|exact C].
  - intros [s a] q M lim [Is (U & k0 & St)] L. cbn [fst snd] in *.
    assert (FE : following (image l) M (Fin q) = following l M (Fin q)) by (unfold following; now rewrite image_xs).
    rewrite FE. apply (st_follow_ok s a k0); auto; destruct (Qcltb F m) eqn:X.
    + apply Qcltb_true in X. qc_lra.
    + exact L.
    + exact L.
    + apply Qcltb_false in X. qc_lra.
  - intros [s a] p M [Is (U & k0 & St)] HM N. cbn [fst snd] in *. destruct (image_nth 0 p N) as (v & N').
    apply (st_first_ok s a k0 (fst p, v) M); auto.
  - intros NZ [s a] k p M [Is (U & k0 & St)] (k1 & St1 & Lk) HM C N. cbn [fst snd] in *. destruct (image_nth (S k) p N) as (v & N').
    rewrite (SX k). apply (st_prev_ok s a k1 k (fst p, v) M); auto. eapply coarse_same; [apply image_xs|exact C].
  - intros q v w J VV. eapply value_unique; [|exact VV|now apply val_knot]. eapply ascending_xs; [symmetry; apply image_xs|exact A].
Qed.
End Over.
