(** Sampling through a state: it is the sampling of the curve that the state
    stands for. *)
From Coq Require Import List ZArith QArith Qcanon Bool Sorting.Sorted Lia Arith.
From Verif Require Import Base Num NumFacts Interval IntervalFacts Curve BaseFacts.
From Verif Require Import Points PointsSpec PointsIdx PointsQuery PointsDom PointsOps PointsMut PointsReset PointsReplace PointsCover PointsHist PointsDec.
From Verif Require Import Combine CombineFacts CombineTop Scan ScanFacts ScanSource ScanInv ScanTf SmaFacts SmaInv ScanTop ScanView ScanSample.
Import ListNotations.

Section Pure.
Context {S V : Type}.
Notation T := xq.
Context (own : option T) (rd : S -> S * ival T) (qy : S -> T -> S * res V)
        (nx : S -> T -> option T -> option T -> res (option T)).
(** In every state of [I] the domain is [D] and the value at [x] is [f x], and
    these queries stay in [I]; x_next at the points of [R] is [g]. *)
Context (I : S -> Prop) (D : ival T) (f : T -> res V) (g : T -> res (option T)) (R : T -> Prop).
Context (c : crv T V) (CD : c_dom c = D) (CY : forall x, c_y c x = f x) (CM : c_ms c = own).
Context (RD : forall s, I s -> exists s', rd s = (s', D) /\ I s').
Context (QY : forall s x, I s -> exists s', qy s x = (s', f x) /\ I s').

Lemma step_loop_pure fuel : forall s x_end step x, I s ->
  exists s', st_step_loop qy fuel s x_end step x = (s', sp_step_loop fuel c x_end step x) /\ I s'.
Proof using CY QY.
  induction fuel as [|fu IH]; intros s e h x Is; cbn [st_step_loop sp_step_loop]; [now exists s|].
  destruct (n_leb x e); [|now exists s]. destruct (QY s x Is) as (s1 & E & I1). rewrite E, CY.
  destruct (f x) as [y|er]; cbn [rbind]; [|now exists s1].
  destruct (IH s1 e h (n_add x h) I1) as (s2 & E2 & I2). rewrite E2.
  destruct (sp_step_loop fu c e h (n_add x h)) as [r|er]; cbn [rbind]; now exists s2.
Qed.

Lemma ms_loop_pure x_end m fuel : (forall s x, I s -> R x -> nx s x (Some m) (Some x_end) = g x) ->
  (forall x, R x -> c_next c x (Some m) (Some x_end) = g x) -> (forall x x1, R x -> g x = Ok (Some x1) -> R x1) ->
  forall s bin x, I s -> (forall v, x = Some v -> R v) ->
  exists s', st_ms_loop qy nx fuel s x_end m bin x = (s', sp_ms_loop fuel c x_end m bin x) /\ I s'.
Proof using CY QY.
  intros NX CN RC. induction fuel as [|fu IH]; intros s bin x Is Rx; cbn [st_ms_loop sp_ms_loop]; [now exists s|].
  destruct x as [x|]; [|now exists s]. specialize (Rx x eq_refl).
  destruct (negb (n_leb x x_end)); [now exists s|]. destruct (QY s x Is) as (s1 & E & I1). rewrite E, CY.
  destruct (f x) as [y|er]; cbn [rbind]; [|now exists s1].
  destruct (n_div x m) as [q|er]; cbn [rbind]; [|now exists s1].
  destruct (n_round q) as [b|er]; cbn [rbind]; [|now exists s1].
  destruct (b =? bin)%Z; [now exists s1|]. rewrite NX, CN by auto.
  destruct (g x) as [x1|er] eqn:G; cbn [rbind]; [|now exists s1].
  destruct (match x1 with Some x1v => _ | None => Ok tt end) as [u|er]; cbn [rbind]; [|now exists s1].
  destruct (IH s1 bin x1 I1) as (s2 & E2 & I2). { intros v ->. now apply (RC x). }
  rewrite E2. destruct (sp_ms_loop fu c x_end m bin x1) as [r|er]; cbn [rbind]; now exists s2.
Qed.

Theorem sample_pure fuel s domain ms step : I s ->
  (step = None -> forall d m, sampled_domain c domain = d -> i_is_empty d = false -> i_is_finite d = true ->
     resolve_min_step own ms = Some m ->
     R (i_start d) /\ (forall s x, I s -> R x -> nx s x (Some m) (Some (i_end d)) = g x) /\
     (forall x, R x -> c_next c x (Some m) (Some (i_end d)) = g x) /\ (forall x x1, R x -> g x = Ok (Some x1) -> R x1)) ->
  exists s', st_sample own rd qy nx fuel s domain ms step = (s', sample_points fuel c domain ms step) /\ I s'.
Proof using CD CY CM RD QY.
  intros Is H. unfold st_sample, sample_points. destruct (RD s Is) as (s0 & E & I0). rewrite E, CM.
  change (match domain with Some d => i_inter2 (c_dom c) d | None => c_dom c end) with (sampled_domain c domain).
  replace (match domain with Some d => i_inter2 D d | None => D end) with (sampled_domain c domain)
    by (unfold sampled_domain; rewrite CD; reflexivity).
  set (d := sampled_domain c domain) in *. cbv zeta.
  destruct (i_is_empty d) eqn:NE; [now exists s0|]. destruct (i_is_finite d) eqn:FI; cbn [negb]; [|now exists s0].
  destruct (match resolve_min_step own ms with Some m => _ | None => _ end) as [bin|er]; cbn [rbind]; [|now exists s0].
  assert (Q0 : exists s1, (if i_so d then (s0, Ok []) else match qy s0 (i_start d) with (s, Err e) => (s, Err e) | (s, Ok y) => (s, Ok [(i_start d, y)]) end)
    = (s1, if i_so d then Ok [] else let! y := c_y c (i_start d) in Ok [(i_start d, y)]) /\ I s1).
  { destruct (i_so d); [now exists s0|]. destruct (QY s0 (i_start d) I0) as (s1 & E1 & I1). exists s1. rewrite E1, CY.
    destruct (f (i_start d)); now split. }
  destruct Q0 as (s1 & E1 & I1). rewrite E1. clear E1.
  destruct (if i_so d then _ else _) as [p0|er]; cbn [rbind]; [|now exists s1].
  destruct step as [h|].
  { destruct (step_loop_pure fuel s1 (i_end d) h (n_add (i_start d) h) I1) as (s2 & E2 & I2). rewrite E2.
    destruct (sp_step_loop fuel c (i_end d) h (n_add (i_start d) h)); cbn [rbind]; now exists s2. }
  destruct (resolve_min_step own ms) as [m|] eqn:RM; [|now exists s1].
  destruct (n_gtb m n_zero); [|now exists s1].
  destruct (H eq_refl d m eq_refl NE FI eq_refl) as (R0 & NX & CN & RC).
  rewrite NX, CN by auto. destruct (g (i_start d)) as [x|er] eqn:G; cbn [rbind]; [|now exists s1].
  destruct (ms_loop_pure (i_end d) m fuel NX CN RC s1 bin x I1) as (s2 & E2 & I2). { intros v ->. now apply (RC (i_start d)). }
  rewrite E2. destruct (sp_ms_loop fuel c (i_end d) m bin x) as [r|er]; cbn [rbind]; [|now exists s2].
  destruct (i_eo d); [now exists s2|]. destruct (last_opt (p0 ++ r)) as [[xl yl]|]; [|now exists s2].
  destruct (negb (n_eqb xl (i_end d))); [|now exists s2].
  destruct (QY s2 (i_end d) I2) as (s3 & E3 & I3). rewrite E3, CY. exists s3.
  destruct (f (i_end d)); now split.
Qed.
End Pure.

(** ** Knots *)
(** the first stored x at least [m] after [x] *)
Definition following {V} (l : list (xq * V)) (m : Qc) (x : xq) : option xq :=
  find (fun y => n_leb (n_add x (Fin m)) y) (map fst l).

Lemma find_least {V} {WV : Val xq V} (l : list (xq * V)) b : ascending l -> least_from l (Fin b) (find (fun y => n_leb (Fin b) y) (map fst l)).
Proof.
  intros A. destruct (find _ _) as [y|] eqn:F; cbn.
  - apply find_some in F as F'. destruct F' as [I L]. apply in_map_iff in I as ((y' & v) & E & I). cbn in E. subst y'.
    split; [eauto|]. split; [exact L|]. intros x w Ix Lx.
    revert A F I Ix Lx. induction l as [|[x0 v0] l IH]; cbn [map find fst In]; [tauto|]. intros A F I Ix Lx.
    destruct (n_leb (Fin b) x0) eqn:L0.
    + injection F as ->. destruct (ascending_fin _ _ A (or_introl eq_refl)) as (q & w0 & Q). injection Q as -> ->.
      destruct Ix as [Q|Ix]; [injection Q as <- <-; apply le_x_fin, Qcle_refl|].
      pose proof (ascending_head_le ((Fin q, w0) :: l) (Fin q, w0) (x, w) A eq_refl (or_intror Ix)) as Y. exact Y.
    + assert (A' : ascending l) by (destruct A as [A1 A2]; split; [now inversion A1|now inversion A2]).
      apply IH; auto.
      * destruct I as [Q|I]; auto. injection Q as -> ->. change (n_leb (Fin b) y = true) in L. congruence.
      * destruct Ix as [Q|Ix]; auto. injection Q as -> ->. change (n_leb (Fin b) x = true) in Lx. congruence.
  - intros x v I L. pose proof (find_none _ _ F x (in_map fst _ _ I)) as X. cbn in X. change (n_leb (Fin b) x = true) in L. cbn in L. congruence.
Qed.

Lemma p_next_following {V} {WV : Val xq V} (s : pts xq V) q m lim : good s ->
  p_x_next s (Fin q) (Some (Fin m)) lim = Ok (following (p_pts s) m (Fin q)).
Proof.
  intros GS. destruct (p_x_next_spec s (Fin q) m lim GS ltac:(discriminate)) as (y & E & Q). rewrite E. f_equal.
  eapply least_unique; [apply GS| |exact Q|]; [discriminate|]. cbn [xq_add]. apply (find_least (p_pts s) (q + m)%Qc), GS.
Qed.

(** ** Domains *)
Lemma inter_idem x0 xn d : (x0 <= xn)%Qc -> iok d -> let D := i_closed (Fin x0) (Fin xn) in let e := i_inter2 D d in
  i_is_empty e = false -> i_inter2 D e = e /\ exists a b, i_start e = Fin a /\ i_end e = Fin b /\ (x0 <= a)%Qc /\ (a <= b)%Qc /\ (b <= xn)%Qc.
Proof.
  intros L [N1 N2]. cbv zeta. intros NE.
  assert (ED : i_is_empty (i_closed (Fin x0) (Fin xn)) = false).
  { unfold i_is_empty, i_closed. cbn [i_start i_end i_so i_eo orb]. rewrite andb_false_r, orb_false_r.
    cbn. apply Qcltb_false. exact L. }
  set (D := i_closed (Fin x0) (Fin xn)) in *. set (e := i_inter2 D d) in *.
  assert (EQ : e = mkI (fst (later_start D d)) (fst (earlier_end D d)) (snd (later_start D d)) (snd (earlier_end D d)) /\ i_is_empty d = false).
  { unfold e, i_inter2 in NE |- *. rewrite ED in NE |- *. destruct (i_is_empty d); [discriminate|]. cbn [orb] in *.
    destruct (later_start D d) as [u o1], (earlier_end D d) as [v o2]. cbn [fst snd]. destruct (i_is_empty (mkI u v o1 o2)); [discriminate|auto]. }
  destruct EQ as [EQ ND].
  assert (S1 : exists a, fst (later_start D d) = Fin a /\ (x0 <= a)%Qc \/ fst (later_start D d) = PInf).
  { unfold later_start, D, i_closed. cbn [i_start i_so]. destruct (i_start d) as [s| | |]; cbn.
    - destruct (Qcltb x0 s) eqn:X; cbn; [apply Qcltb_true in X; exists s; left; split; auto; qc_lra|].
      destruct (Qcltb s x0); cbn; exists x0; left; split; auto; apply Qcle_refl.
    - exists x0. now right.
    - exists x0. left. split; auto. apply Qcle_refl.
    - congruence. }
  assert (S2 : exists b, fst (earlier_end D d) = Fin b /\ (b <= xn)%Qc \/ fst (earlier_end D d) = NInf).
  { unfold earlier_end, D, i_closed. cbn [i_end i_eo]. destruct (i_end d) as [s| | |]; cbn.
    - destruct (Qcltb xn s) eqn:X; cbn; [exists xn; left; split; auto; apply Qcle_refl|].
      destruct (Qcltb s xn) eqn:Y; cbn; [exists s; left; split; auto; apply Qclt_le_weak; now apply Qcltb_true|exists xn; left; split; auto; apply Qcle_refl].
    - exists xn. left. split; auto. apply Qcle_refl.
    - exists xn. now right.
    - congruence. }
  destruct S1 as [a [[A1 A2]|A1]]; [|exfalso; rewrite EQ, A1 in NE; unfold i_is_empty in NE; cbn in NE; destruct S2 as [b [[B1 B2]|B1]]; rewrite B1 in NE; discriminate].
  destruct S2 as [b [[B1 B2]|B1]]; [|exfalso; rewrite EQ, A1, B1 in NE; unfold i_is_empty in NE; cbn in NE; discriminate].
  assert (AB : (a <= b)%Qc).
  { rewrite EQ in NE. unfold i_is_empty in NE. cbn [i_start i_end] in NE. rewrite A1, B1 in NE. apply orb_false_elim in NE as [NE _].
    cbn in NE. now apply Qcltb_false. }
  split; [|exists a, b; rewrite EQ; cbn; auto].
  unfold i_inter2. rewrite ED, NE. cbn [orb].
  assert (IR : forall q, Qcltb q q = false) by (intros q; apply Qcltb_false; apply Qcle_refl).
  assert (SE : i_start e = Fin a) by (rewrite EQ; exact A1). assert (EE : i_end e = Fin b) by (rewrite EQ; exact B1).
  assert (L1 : later_start D e = (i_start e, i_so e)).
  { unfold later_start. rewrite SE. unfold D, i_closed. cbn [i_start i_so n_ltb XQ xq_ltb].
    destruct (Qcltb x0 a) eqn:X; [reflexivity|]. apply Qcltb_false in X. assert (a = x0) by (apply Qcle_antisym; auto). subst a.
    rewrite IR. reflexivity. }
  assert (L2 : earlier_end D e = (i_end e, i_eo e)).
  { unfold earlier_end. rewrite EE. unfold D, i_closed. cbn [i_end i_eo n_ltb XQ xq_ltb].
    destruct (Qcltb xn b) eqn:Y; [apply Qcltb_true in Y; exfalso; qc_lra|].
    destruct (Qcltb b xn) eqn:X; [reflexivity|]. apply Qcltb_false in X. assert (b = xn) by (apply Qcle_antisym; auto). subst b. reflexivity. }
  rewrite L1, L2. destruct e as [u v o1 o2]. cbn [i_start i_end i_so i_eo]. rewrite NE. reflexivity.
Qed.
