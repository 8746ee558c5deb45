(** Every curve of a network shows its points in every state that questions can
    lead to ([ready] of TowerFacts.v). *)
From Coq Require Import List ZArith QArith Qcanon Bool Sorting.Sorted Lia Arith.
From Verif Require Import Base Num NumFacts Interval IntervalFacts Curve BaseFacts.
From Verif Require Import Points PointsSpec PointsIdx PointsQuery PointsDom PointsOps PointsMut PointsReset PointsReplace PointsCover PointsHist PointsTop PointsDec.
From Verif Require Import BaseTop Combine CombineFacts CombineTop CombineLine Scan ScanFacts ScanSource ScanInv ScanTf SmaFacts SmaInv ScanTop ScanView ScanSample ScanSampleFacts ScanSampleAcc Tower TowerFacts TowerTop TowerHist Weave WeaveList WeaveFacts.
Import ListNotations.

Lemma ready_less {St} (sc : scrv xq St) I U Vr l F (Z Z' : Prop) : (Z' -> Z) -> ready sc I U Vr l F Z -> ready sc I U Vr l F Z'.
Proof. intros ZZ [A1 A2 A3 A4 A5 A6 A7 A8]. split; auto. Qed.

Section Net.
Context (ns : list (wnode xq)) (d : list (Qc * Qc)) (WV : woven ns d).
Notation l := (dots d).
Let W : wf ns := proj1 WV.
Notation lst := (w_list ns l).
Context (A : ascending l) (ES : equally_spaced l) (CS : coarse min_step l).
Context (s : pts xq num) (GS : good s) (PS : p_pts s = l) (fuel : nat) (Lf : (length d < fuel)%nat).
Notation full j := (nth j (w_curves fuel (p_crv s) ns) nothing).
Notation sh := (shows ns (p_interp s) d).

(** ** The curves *)
Lemma full_eq j n : nth_error ns j = Some n -> full j = w_node fuel (p_crv s) j (wpick nothing (w_node fuel (p_crv s)) ns j) n.
Proof. exact (wat_eq nothing (w_node fuel (p_crv s)) ns j n). Qed.
Lemma pick_eq j n p : nth_error ns j = Some n -> In p (wreads n) -> wpick nothing (w_node fuel (p_crv s)) ns j p = full p.
Proof. intros H I. exact (wpick_eq nothing (w_node fuel (p_crv s)) ns j p (wf_below ns j n p W H I)). Qed.

(** ** How far the curves have been evaluated *)
Definition node_upto (j : nat) (pick : nat -> gst xq -> nat -> Prop) (n : wnode xq) : gst xq -> nat -> Prop :=
  match n with
  | WBase => fun _ _ => True
  | WMap _ _ _ p => pick p
  | WAgg _ _ _ ps => fun g k => forall p, In p ps -> pick p g k
  | WScan k _ p => fun g i => oupto (lst p) (layer_G k) (g, acc_at g j) i
  end.
Definition upto (j : nat) : gst xq -> nat -> Prop := wat (fun _ _ => True) node_upto ns j.
Lemma upto_base j : nth_error ns j = Some WBase -> upto j = fun _ _ => True.
Proof. intros H. unfold upto. rewrite (wat_eq _ _ ns j _ H). reflexivity. Qed.
Lemma upto_map j skip own tfm p : nth_error ns j = Some (WMap skip own tfm p) -> upto j = upto p.
Proof. intros H. unfold upto. rewrite (wat_eq _ _ ns j _ H). cbn [node_upto]. apply wpick_eq. apply (wf_below ns j _ p W H). now left. Qed.
Lemma upto_agg j un df tfm ps : nth_error ns j = Some (WAgg un df tfm ps) -> forall g k, upto j g k <-> forall p, In p ps -> upto p g k.
Proof.
  intros H g k. unfold upto at 1. rewrite (wat_eq _ _ ns j _ H). cbn [node_upto].
  split; intros X p I; specialize (X p I); (rewrite wpick_eq in *; [exact X|exact (wf_below ns j _ p W H I)]).
Qed.
Lemma upto_scan j k own p : nth_error ns j = Some (WScan k own p) -> upto j = fun g i => oupto (lst p) (layer_G k) (g, acc_at g j) i.
Proof. intros H. unfold upto. rewrite (wat_eq _ _ ns j _ H). reflexivity. Qed.

(** ** The states of the network *)
Definition node_inv (n : wnode xq) (a : acc xq num) : Prop :=
  match n with
  | WBase => True
  | WScan k _ p => vinv (layer_G k) ILinear (lst p) a
  | _ => vupd l a
  end.
Definition WI (g : gst xq) : Prop := length g = length ns /\ forall j n, nth_error ns j = Some n -> node_inv n (acc_at g j).
Definition steps (g g' : gst xq) : Prop := WI g' /\ forall j k own p, nth_error ns j = Some (WScan k own p) -> forall i, upto j g i -> upto j g' i.
Lemma steps_refl g : WI g -> steps g g.
Proof. split; auto. Qed.
Lemma steps_trans g g1 g2 : steps g g1 -> steps g1 g2 -> steps g g2.
Proof. intros [_ M1] [I2 M2]. split; [exact I2|]. intros j k own p H i U. eapply M2; eauto. Qed.
Lemma upto_mono g g' : steps g g' -> forall j n, nth_error ns j = Some n -> forall i, upto j g i -> upto j g' i.
Proof.
  intros [_ M] j. induction j as [j IH] using lt_wf_ind. intros n H i. destruct n as [|skip own tfm p|un df tfm ps|k own p].
  - rewrite (upto_base j H). auto.
  - rewrite (upto_map j _ _ _ _ H). destruct (wf_node ns j _ p W H (or_introl eq_refl)) as [m E]. apply (IH p (wf_below ns j _ p W H (or_introl eq_refl)) m E).
  - rewrite !(upto_agg j _ _ _ _ H). intros X p I. destruct (wf_node ns j _ p W H I) as [m E]. apply (IH p (wf_below ns j _ p W H I) m E). now apply X.
  - eapply M; eauto.
Qed.
Lemma to_grows g0 g g' j n : nth_error ns j = Some n -> steps g0 g -> steps g g' -> grows (steps g0) (upto j) g g'.
Proof. intros H S0 S1. split; [eapply steps_trans; eauto|]. now apply (upto_mono g g' S1 j n H). Qed.
Lemma j_len g j n : WI g -> nth_error ns j = Some n -> (j < length g)%nat.
Proof. intros [L _] H. rewrite L. apply nth_error_Some. congruence. Qed.

(** a curve that accumulates nothing keeps its domain *)
Lemma put_steps g g1 j n a : nth_error ns j = Some n -> (match n with WScan _ _ _ => False | _ => True end) -> steps g g1 -> vupd l a -> steps g (put g1 j a).
Proof.
  intros H NS [[L I] M] V. split.
  - split; [rewrite put_len; exact L|]. intros i m Hi. destruct (Nat.eq_dec i j) as [->|NE].
    + rewrite put_at by (rewrite L; apply nth_error_Some; congruence). rewrite H in Hi. injection Hi as <-. now destruct n.
    + rewrite put_else by exact NE. now apply I.
  - intros i k own p Hi x U. specialize (M i k own p Hi x U). rewrite (upto_scan i _ _ _ Hi) in *.
    destruct (Nat.eq_dec i j) as [->|NE]; [rewrite H in Hi; injection Hi as ->; contradiction|].
    unfold oupto in *. cbn [snd] in *. rewrite put_else by exact NE. exact M.
Qed.

(** ** The curve as in TowerFacts.v *)
Definition deep_ok (j : nat) : Prop := nonzero l \/ (w_deep ns j <= 1)%nat.
Definition good_at (j : nat) : Prop := forall g0, ready (fst (full j)) (steps g0) (upto j) (sh j) (lst j) (w_floor ns j) (deep_ok j).

Lemma lens_ready j k own p sc0 Vr ll F Z g0 : nth_error ns j = Some (WScan k own p) ->
  ready sc0 (oinv (steps g0) (lst p) (layer_G k)) (oupto (lst p) (layer_G k)) Vr ll F Z ->
  ready (at_scrv j sc0) (steps g0) (upto j) Vr ll F Z.
Proof.
  intros H RD.
  assert (IN : forall g, steps g0 g -> oinv (steps g0) (lst p) (layer_G k) (g, acc_at g j)).
  { intros g Sg. split; [exact Sg|]. cbn [snd]. exact (proj2 (proj1 Sg) j _ H). }
  assert (OUT : forall g t, steps g0 g -> grows (oinv (steps g0) (lst p) (layer_G k)) (oupto (lst p) (layer_G k)) (g, acc_at g j) t ->
     grows (steps g0) (upto j) g (put (fst t) j (snd t)) /\ forall i, oupto (lst p) (layer_G k) t i -> upto j (put (fst t) j (snd t)) i).
  { intros g [g1 a] Sg [[S1 V1] M1]. cbn [fst snd] in *.
    assert (UJ : forall i, oupto (lst p) (layer_G k) (g1, a) i -> upto j (put g1 j a) i).
    { intros i U. rewrite (upto_scan j _ _ _ H). rewrite put_at by exact (j_len g1 j _ (proj1 S1) H). exact U. }
    split; [|exact UJ]. assert (MJ : forall i, upto j g i -> upto j (put g1 j a) i).
    { intros i U. apply UJ, M1. rewrite (upto_scan j _ _ _ H) in U. exact U. }
    split; [|exact MJ]. split.
    - split; [rewrite put_len; apply S1|]. intros i m Hi. destruct (Nat.eq_dec i j) as [->|NE].
      + rewrite put_at by exact (j_len g1 j _ (proj1 S1) H). rewrite H in Hi. injection Hi as <-. exact V1.
      + rewrite put_else by exact NE. now apply S1.
    - intros i k' own' p' Hi x U. destruct (Nat.eq_dec i j) as [->|NE].
      + apply MJ. eapply (proj2 Sg); eauto.
      + pose proof (proj2 S1 i k' own' p' Hi x U) as X. rewrite (upto_scan i _ _ _ Hi) in *. unfold oupto in *. cbn [snd] in *. now rewrite put_else by exact NE. }
  destruct RD as [A1 A2 A3 A4 A5 A6 A7 A8].
  split; cbn [at_scrv sc_dom sc_y sc_next sc_prev]; unfold at_node.
  - intros g Sg. destruct (A1 _ (IN g Sg)) as (t & E & GR). rewrite E. eexists. split; [reflexivity|]. now apply OUT.
  - intros g q Sg. destruct (A2 _ q (IN g Sg)) as (t & v & E & VV & GR & UP). rewrite E. eexists _, v. split; [reflexivity|]. split; [exact VV|].
    destruct (OUT g t Sg GR) as [X Y]. split; [exact X|]. intros i w Nw. apply Y. eapply UP; eauto.
  - intros g x Sg. pose proof (A3 _ x (IN g Sg)) as GR. destruct (sc_y sc0 x (g, acc_at g j)) as [t r]. cbn [fst] in GR |- *. now apply OUT.
  - intros g i a M lim Sg HM C Nk. rewrite (A4 _ i a M lim (IN g Sg) HM C Nk). cbn [fst snd]. now rewrite put_same.
  - intros g q M lim Sg L. rewrite (A5 _ q M lim (IN g Sg) L). cbn [fst snd]. now rewrite put_same.
  - intros g a M Sg HM Nk. rewrite (A6 _ a M (IN g Sg) HM Nk). cbn [fst snd]. now rewrite put_same.
  - intros HZ g i a M Sg U HM C Nk. rewrite (upto_scan j _ _ _ H) in U. rewrite (A7 HZ _ i a M (IN g Sg) U HM C Nk). cbn [fst snd]. now rewrite put_same.
  - exact A8.
Qed.

(** ** The source *)
Lemma good_base : good_at 0.
Proof.
  intros g0. pose proof (still_ready s GS) as [A1 A2 A3 A4 A5 A6 A7 A8]. rewrite PS in *.
  assert (H : nth_error ns 0 = Some WBase) by apply W.
  assert (EF : w_floor ns 0 = 0%Qc) by (unfold w_floor; now rewrite (wat_eq _ _ ns 0 _ H)).
  rewrite EF, (full_eq 0 _ H), (list_base ns W). cbn [w_node w_base fst].
  assert (UB : forall g k, upto 0 g k) by (intros g k; now rewrite (upto_base 0 H)).
  assert (GR : forall g, steps g0 g -> grows (steps g0) (upto 0) g g) by (intros g Sg; now apply grows_refl).
  split; cbn [sc_dom sc_y sc_next sc_prev still] in *.
  - intros g Sg. destruct (A1 tt Logic.I) as ([] & E & _). exists g. split; [congruence|now apply GR].
  - intros g q Sg. destruct (A2 tt q Logic.I) as ([] & v & E & VV & _). exists g, v. split; [congruence|]. split; [now apply sh_base|]. split; [now apply GR|auto].
  - intros g x Sg. now apply GR.
  - intros g k a M lim Sg HM C Nk. specialize (A4 tt k a M lim Logic.I HM C Nk). congruence.
  - intros g q M lim Sg L. specialize (A5 tt q M lim Logic.I L). congruence.
  - intros g a M Sg HM Nk. specialize (A6 tt a M Logic.I HM Nk). congruence.
  - intros _ g k a M Sg _ HM C Nk. specialize (A7 Logic.I tt k a M Logic.I Logic.I HM C Nk). congruence.
  - intros q v w J S. apply (shows_at ns d WV A (p_interp s) 0 WBase H q v w S). now rewrite (list_base ns W).
Qed.

Lemma mx_pos a b : (0 < b)%Qc -> (0 < mx a b)%Qc.
Proof. intros H. unfold mx. destruct (Qcltb a b) eqn:E; auto. apply Qcltb_false in E. qc_lra. Qed.
Lemma mx_le a b c : (mx a b <= c)%Qc -> (a <= c)%Qc /\ (b <= c)%Qc.
Proof. unfold mx. destruct (Qcltb a b) eqn:E; [apply Qcltb_true in E|apply Qcltb_false in E]; intros H; split; qc_lra. Qed.

(** the cached domain of a curve that accumulates nothing *)
Lemma dom_kept g j n : WI g -> nth_error ns j = Some n -> (match n with WMap _ _ _ _ | WAgg _ _ _ _ => True | _ => False end) -> vupd l (acc_at g j).
Proof. intros [_ I] H M. specialize (I j n H). destruct n; try contradiction; exact I. Qed.
Lemma dom_set (a : acc xq num) : vupd l a -> vupd l (fst (acc_dom (pts_domain l) a)) /\ (u_dom (a_upd a) = None -> acc_dom (pts_domain l) a = (fst (acc_dom (pts_domain l) a), pts_domain l)).
Proof.
  intros [Id D]. unfold acc_dom. destruct (u_dom (a_upd a)) as [x|] eqn:E.
  - split; [|discriminate]. cbn [fst]. split; [exact Id|]. now rewrite E.
  - cbn [fst]. split; [split; [exact Id|now right]|reflexivity].
Qed.

(** ** Maps *)
Lemma good_map j skip own tfm p : nth_error ns j = Some (WMap skip own tfm p) -> good_at p -> good_at j.
Proof.
  intros H GP g0. pose proof (or_introl eq_refl : In p (wreads (WMap skip own tfm p))) as Ip.
  destruct (wf_node ns j _ p W H Ip) as [np Hp].
  destruct (proj2 WV j _ H) as ((m & -> & Hm & CM) & TOT & _).
  assert (EF : w_floor ns j = mx (w_floor ns p) m).
  { unfold w_floor. rewrite (wat_eq _ _ ns j _ H). cbn [node_floor step_of]. now rewrite wpick_eq by exact (wf_below ns j _ p W H Ip). }
  assert (ED : w_deep ns j = w_deep ns p).
  { unfold w_deep. rewrite (wat_eq _ _ ns j _ H). cbn [node_deep]. now rewrite wpick_eq by exact (wf_below ns j _ p W H Ip). }
  rewrite EF, (full_eq j _ H). cbn [w_node w_map fst]. rewrite (pick_eq j _ p H Ip). set (src := fst (full p)).
  assert (KX : forall k, option_map fst (nth_error (lst j) k) = option_map fst (nth_error (lst p) k)).
  { intros k. now rewrite (nth_at ns d WV j _ k H), (nth_at ns d WV p _ k Hp). }
  assert (CX : forall M, coarse M (lst j) -> coarse M (lst p)).
  { intros M. apply coarse_same. now rewrite (list_xs ns W l j _ H), (list_xs ns W l p _ Hp). }
  assert (CMp : coarse m (lst p)) by (eapply coarse_same; [|exact CM]; now rewrite (list_xs ns W l p _ Hp)).
  split; cbn [sc_dom sc_y sc_next sc_prev]; rewrite ?(upto_map j _ _ _ _ H).
  - intros g Sg. pose proof (proj1 Sg) as Ig. pose proof (dom_kept g j _ Ig H Logic.I) as V.
    rewrite (dom_at ns d WV j _ H). unfold at_node, st_dom. cbn [snd]. destruct (u_dom (a_upd (acc_at g j))) as [x|] eqn:E.
    + destruct V as [_ [D|D]]; [congruence|]. rewrite E in D. injection D as ->. cbn [fst snd]. rewrite put_same. exists g. split; [reflexivity|now apply grows_refl].
    + destruct (rd_dom _ _ _ _ _ _ _ (GP g) g (steps_refl g Ig)) as (g1 & E1 & [S1 _]). fold src in E1.
      unfold sbind, of_src, of_acc. cbn [fst snd]. rewrite E1. cbn [fst snd]. rewrite (dom_at ns d WV p _ Hp).
      destruct (dom_set _ V) as [V' ED']. rewrite (ED' E). cbn [fst snd]. eexists. split; [reflexivity|].
      assert (S2 : steps g (put g1 j (fst (acc_dom (pts_domain l) (acc_at g j))))) by (apply (put_steps g g1 j _ _ H); auto).
      apply (to_grows g0 g _ p np Hp Sg S2).
  - intros g q Sg. destruct (rd_y _ _ _ _ _ _ _ (GP g0) g q Sg) as (g1 & v & E & VV & GR & UP). fold src in E.
    destruct (TOT q v) as [w Ew]. exists g1, w. unfold sbind. rewrite E.
    split; [|split; [eapply sh_map; eauto|split; [exact GR|]]].
    + unfold map_val in Ew. destruct (skip && _); [unfold sret; congruence|]. now rewrite Ew.
    + intros k w' Nk. destruct (nth_to ns d WV j p _ _ k _ H Hp Nk) as (v' & Nk'). eapply UP; eauto.
  - intros g x Sg. pose proof (rd_any _ _ _ _ _ _ _ (GP g0) g x Sg) as GR. fold src in GR. unfold sbind, sret.
    destruct (sc_y src x g) as [g1 [v|e]]; cbn [fst] in GR |- *; [|exact GR]. destruct (skip && _); exact GR.
  - intros g k a M lim Sg HM C Nk. destruct (nth_to ns d WV j p _ _ k _ H Hp Nk) as (v & Nk'). rewrite resolve_max, (KX (S k)).
    apply (rd_next _ _ _ _ _ _ _ (GP g0) g k (fst a, v)); auto; destruct (Qcltb M m); auto.
  - intros g q M lim Sg L. apply mx_le in L as [L1 L2]. rewrite resolve_max, (proj2 (Qcltb_false _ _) L2).
    rewrite (follow_at ns d WV j _ M q H), <- (follow_at ns d WV p _ M q Hp). now apply (rd_follow _ _ _ _ _ _ _ (GP g0)).
  - intros g a M Sg HM Nk. destruct (nth_to ns d WV j p _ _ 0%nat _ H Hp Nk) as (v & Nk'). rewrite resolve_max.
    apply (rd_first _ _ _ _ _ _ _ (GP g0) g (fst a, v)); auto; destruct (Qcltb M m); auto.
  - intros HZ g k a M Sg U HM C Nk. unfold deep_ok in HZ. rewrite ED in HZ. destruct (nth_to ns d WV j p _ _ (S k) _ H Hp Nk) as (v & Nk'). rewrite resolve_max, (KX k).
    apply (rd_prev _ _ _ _ _ _ _ (GP g0) HZ g k (fst a, v)); auto; destruct (Qcltb M m); auto.
  - intros q v w J S. exact (shows_at ns d WV A (p_interp s) j _ H q v w S J).
Qed.

(** ** Aggregates *)
Section Agg.
Context (ps : list nat) (PG : forall p, In p ps -> good_at p /\ exists n, nth_error ns p = Some n).
Notation srcs := (map (fun p => fst (full p)) ps).

Lemma all_doms g : WI g -> exists g', smapM sc_dom srcs g = (g', Ok (map (fun _ => pts_domain l) ps)) /\ steps g g'.
Proof.
  revert PG g. induction ps as [|p ps' IH]; intros PG' g Ig; cbn [map smapM].
  { exists g. split; [reflexivity|now apply steps_refl]. }
  destruct (PG' p (or_introl eq_refl)) as [GP [n Hp]].
  destruct (rd_dom _ _ _ _ _ _ _ (GP g) g (steps_refl g Ig)) as (g1 & E1 & [S1 _]). unfold sbind at 1. rewrite E1, (dom_at ns d WV p _ Hp).
  destruct (IH (fun p' I => PG' p' (or_intror I)) g1 (proj1 S1)) as (g2 & E2 & S2). unfold sbind. rewrite E2.
  exists g2. split; [reflexivity|]. eapply steps_trans; eauto.
Qed.
Lemma all_ys g q : WI g -> exists g' vs, smapM (fun c => sc_y c (Fin q)) srcs g = (g', Ok vs) /\ Forall2 (fun p v => sh p q v) ps vs /\ steps g g' /\
  (forall k w, nth_error l k = Some (Fin q, w) -> forall p, In p ps -> upto p g' k).
Proof.
  revert PG g. induction ps as [|p ps' IH]; intros PG' g Ig; cbn [map smapM].
  { exists g, []. split; [reflexivity|]. split; [constructor|]. split; [now apply steps_refl|intros k w _ p []]. }
  destruct (PG' p (or_introl eq_refl)) as [GP [n Hp]].
  destruct (rd_y _ _ _ _ _ _ _ (GP g) g q (steps_refl g Ig)) as (g1 & v & E1 & VV & [S1 _] & UP). unfold sbind at 1. rewrite E1.
  destruct (IH (fun p' I => PG' p' (or_intror I)) g1 (proj1 S1)) as (g2 & vs & E2 & F2 & S2 & U2). unfold sbind. rewrite E2.
  exists g2, (v :: vs). split; [reflexivity|]. split; [now constructor|]. split; [eapply steps_trans; eauto|].
  intros k w Nk p' [<-|I]; [|eapply U2; eauto].
  apply (upto_mono g1 g2 S2 p n Hp). pose proof (nth_at ns d WV p n k Hp) as X. rewrite Nk in X. cbn in X.
  destruct (nth_error (lst p) k) as [[x u]|] eqn:Np; [|discriminate]. cbn in X. injection X as ->. eapply UP; eauto.
Qed.
Lemma all_same {B} (f : scrv xq (gst xq) -> sr (gst xq) B) (r : B) g : (forall p, In p ps -> f (fst (full p)) g = (g, Ok r)) ->
  smapM f srcs g = (g, Ok (map (fun _ => r) ps)).
Proof.
  revert PG. induction ps as [|p ps' IH]; intros PG' H; cbn [map smapM]; [reflexivity|].
  unfold sbind. rewrite (H p (or_introl eq_refl)). rewrite (IH (fun p' I => PG' p' (or_intror I)) (fun p' I => H p' (or_intror I))). reflexivity.
Qed.
End Agg.

Lemma min_none gt (ps : list nat) : min_or_none (gt : xq) None (map (fun _ => None) ps) = None.
Proof. induction ps; auto. Qed.
Lemma max_none lt (ps : list nat) : max_or_none (lt : xq) None (map (fun _ => None) ps) = None.
Proof. induction ps; auto. Qed.
Lemma min_keep gt y (ps : list nat) : lt_x gt y -> min_or_none gt (Some y) (map (fun _ => Some y) ps) = Some y.
Proof. intros L. induction ps as [|p ps IH]; auto. cbn [map min_or_none]. destruct (n_ltb y y); [|exact IH]. unfold n_gtb. unfold lt_x in L. cbn [n_ltb XQ]. rewrite L. exact IH. Qed.
Lemma max_keep lt y (ps : list nat) : lt_x y lt -> max_or_none lt (Some y) (map (fun _ => Some y) ps) = Some y.
Proof. intros L. induction ps as [|p ps IH]; auto. cbn [map max_or_none]. unfold n_gtb. destruct (n_ltb y y); [|exact IH]. unfold lt_x in L. cbn [n_ltb XQ]. rewrite L. exact IH. Qed.
Lemma min_same gt o (ps : list nat) : ps <> [] -> (forall y, o = Some y -> lt_x gt y) -> min_or_none gt None (map (fun _ => o) ps) = o.
Proof.
  intros NE L. destruct o as [y|]; [|apply min_none]. destruct ps as [|p ps]; [congruence|]. cbn [map min_or_none]. specialize (L y eq_refl).
  unfold n_gtb. pose proof L as L'. unfold lt_x in L'. cbn [n_ltb XQ]. rewrite L'. now apply min_keep.
Qed.
Lemma max_same lt o (ps : list nat) : ps <> [] -> (forall y, o = Some y -> lt_x y lt) -> max_or_none lt None (map (fun _ => o) ps) = o.
Proof.
  intros NE L. destruct o as [y|]; [|apply max_none]. destruct ps as [|p ps]; [congruence|]. cbn [map max_or_none]. specialize (L y eq_refl).
  pose proof L as L'. unfold lt_x in L'. cbn [n_ltb XQ]. rewrite L'. now apply max_keep.
Qed.
Lemma fold_mx f (ps : list nat) : forall a M, (fold_left (fun a p => mx a (f p)) ps a <= M)%Qc -> (a <= M)%Qc /\ forall p, In p ps -> (f p <= M)%Qc.
Proof.
  induction ps as [|p ps IH]; intros a M L; cbn in *; [split; [exact L|intros p []]|].
  destruct (IH _ _ L) as [L1 L2]. apply mx_le in L1 as [L0 L1]. split; [exact L0|]. intros p' [<-|I]; auto.
Qed.

Lemma good_agg j un df tfm ps : nth_error ns j = Some (WAgg un df tfm ps) -> (forall p, In p ps -> good_at p) -> good_at j.
Proof.
  intros H GP g0.
  assert (PG : forall p, In p ps -> good_at p /\ exists n, nth_error ns p = Some n) by (intros p I; split; [now apply GP|exact (wf_node ns j _ p W H I)]).
  assert (NE : ps <> []).
  { destruct (proj2 W j _ H) as [_ [E|E]]; [|exact E]. subst j. pose proof (proj1 W) as B. rewrite H in B. discriminate. }
  destruct (proj2 WV j _ H) as (TOT & _).
  assert (EF : w_floor ns j = fold_left (fun a p => mx a (w_floor ns p)) ps min_step).
  { unfold w_floor at 1. rewrite (wat_eq _ _ ns j _ H). cbn [node_floor].
    assert (B : forall p, In p ps -> wpick 0%Qc node_floor ns j p = w_floor ns p) by (intros p I; apply wpick_eq; exact (wf_below ns j _ p W H I)).
    clear -B. revert B. generalize min_step. induction ps as [|p ps' IH]; intros a B; [reflexivity|]. cbn [fold_left]. rewrite (B p (or_introl eq_refl)). apply IH. intros p' I. apply B. now right. }
  assert (DZ : deep_ok j -> forall p, In p ps -> deep_ok p).
  { intros [X|X] p I; [now left|right]. unfold w_deep in X. rewrite (wat_eq _ _ ns j _ H) in X. cbn [node_deep] in X.
    apply list_max_le in X. rewrite Forall_forall in X. specialize (X _ (in_map _ _ _ I)). cbv beta in X.
    now rewrite (wpick_eq 0%nat node_deep ns j p (wf_below ns j _ p W H I)) in X. }
  rewrite EF, (full_eq j _ H). cbn [w_node w_agg fst].
  assert (ES' : map (fun p => fst (wpick nothing (w_node fuel (p_crv s)) ns j p)) ps = map (fun p => fst (full p)) ps).
  { apply map_ext_in. intros p I. now rewrite (pick_eq j _ p H I). }
  rewrite ES'. set (srcs := map (fun p => fst (full p)) ps).
  assert (DOM : forall g, WI g -> exists g', w_agg_dom j un srcs g = (g', Ok (pts_domain l)) /\ steps g g').
  { intros g Ig. unfold w_agg_dom. pose proof (dom_kept g j _ Ig H Logic.I) as V. destruct (u_dom (a_upd (acc_at g j))) as [x|] eqn:E.
    - destruct V as [_ [D|D]]; [congruence|]. rewrite E in D. injection D as ->. exists g. split; [reflexivity|now apply steps_refl].
    - destruct (all_doms ps PG g Ig) as (g1 & E1 & S1). fold srcs in E1. unfold sbind. rewrite E1, (union_same l ps A NE), (inter_same l ps A NE). replace (if un then pts_domain l else pts_domain l) with (pts_domain l) by (destruct un; reflexivity).
      eexists. split; [reflexivity|]. apply (put_steps g g1 j _ _ H Logic.I S1). apply dom_set. exact (dom_kept g1 j _ (proj1 S1) H Logic.I). }
  split; cbn [sc_dom sc_y sc_next sc_prev].
  - intros g Sg. rewrite (dom_at ns d WV j _ H). destruct (DOM g (proj1 Sg)) as (g' & E & S'). exists g'. split; [exact E|]. exact (to_grows g0 g g' j _ H Sg S').
  - intros g q Sg. destruct (DOM g (proj1 Sg)) as (g1 & E1 & S1). unfold sbind at 1. rewrite E1.
    destruct (i_contains (pts_domain l) (Fin q)) eqn:IC; cbn [negb].
    + destruct (all_ys ps PG g1 q (proj1 S1)) as (g2 & vs & E2 & F2 & S2 & U2). fold srcs in E2. unfold sbind. rewrite E2.
      assert (LV : length vs = length ps) by (symmetry; clear -F2; induction F2; cbn; auto).
      destruct (TOT q vs LV) as [w Ew]. exists g2, w. rewrite Ew. split; [reflexivity|]. split; [eapply sh_agg; eauto|].
      split; [apply (to_grows g0 g g2 j _ H Sg); eapply steps_trans; eauto|].
      intros k w' Nk. apply (upto_agg j _ _ _ _ H). intros p I. destruct (nth_in ns d WV j _ k _ H Nk) as (v' & Nk'). eapply U2; eauto.
    + exists g1, df. split; [reflexivity|]. split; [eapply sh_out; eauto|]. split; [exact (to_grows g0 g g1 j _ H Sg S1)|].
      intros k w Nk. exfalso. destruct (nth_in ns d WV j _ k _ H Nk) as (v' & Nk'). cbn [fst] in Nk'. apply nth_error_In in Nk'.
      apply (dom_knot l A) in Nk'. cbn [fst] in Nk'. congruence.
  - intros g x Sg. destruct (DOM g (proj1 Sg)) as (g1 & E1 & S1). unfold sbind at 1. rewrite E1.
    destruct (i_contains (pts_domain l) x) eqn:IC; cbn [negb]; [|exact (to_grows g0 g g1 j _ H Sg S1)].
    destruct (list_dom_fin l x A IC) as [q ->].
    destruct (all_ys ps PG g1 q (proj1 S1)) as (g2 & vs & E2 & F2 & S2 & U2). fold srcs in E2. unfold sbind. rewrite E2. cbn [fst].
    apply (to_grows g0 g g2 j _ H Sg). eapply steps_trans; eauto.
  - intros g k a M lim Sg HM C Nk. unfold sbind.
    assert (EA : smapM (fun c => sc_next c (fst a) (Some (Fin M)) lim) srcs g = (g, Ok (map (fun _ => option_map fst (nth_error (lst j) (S k))) ps))).
    { apply (all_same ps PG). intros p I. destruct (PG p I) as [GPp [np Hp]]. destruct (nth_to ns d WV j p _ _ k _ H Hp Nk) as (v & Nk').
      rewrite (nth_at ns d WV j _ (S k) H), <- (nth_at ns d WV p _ (S k) Hp). change (fst a) with (fst (fst a, v)).
      apply (rd_next _ _ _ _ _ _ _ (GPp g0) g k); auto. eapply coarse_same; [|exact C]. now rewrite (list_xs ns W l j _ H), (list_xs ns W l p _ Hp). }
    rewrite EA. unfold sret. do 2 f_equal. apply min_same; [exact NE|]. intros y Ey. destruct (nth_error (lst j) (S k)) as [b|] eqn:Nb; [|discriminate].
    cbn in Ey. injection Ey as <-. exact (asc_nth _ _ _ _ _ (asc_at ns d WV A j _ H) Nk Nb ltac:(lia)).
  - intros g q M lim Sg L. apply fold_mx in L as [L0 L]. unfold sbind. rewrite (follow_at ns d WV j _ M q H).
    assert (EA : smapM (fun c => sc_next c (Fin q) (Some (Fin M)) lim) srcs g = (g, Ok (map (fun _ => following l M (Fin q)) ps))).
    { apply (all_same ps PG). intros p I. destruct (PG p I) as [GPp [np Hp]]. rewrite <- (follow_at ns d WV p _ M q Hp).
      apply (rd_follow _ _ _ _ _ _ _ (GPp g0)); auto. }
    rewrite EA. unfold sret. do 2 f_equal. apply min_same; [exact NE|]. intros y Ey.
    assert (LF : least_from l (Fin (q + M)%Qc) (following l M (Fin q))) by exact (find_least l (q + M)%Qc A). rewrite Ey in LF. destruct LF as [(w & J) [LE _]].
    destruct (ascending_fin _ _ A J) as (r & u & X). injection X as -> ->. apply le_x_fin in LE. apply lt_x_fin.
    assert (P : (0 < min_step)%Qc) by (apply Qcltb_true; vm_compute; reflexivity). clear - LE L0 P. qc_lra.
  - intros g a M Sg HM Nk. unfold sbind.
    assert (EA : smapM (fun c => sc_prev c (fst a) (Some (Fin M)) None) srcs g = (g, Ok (map (fun _ => None) ps))).
    { apply (all_same ps PG). intros p I. destruct (PG p I) as [GPp [np Hp]]. destruct (nth_to ns d WV j p _ _ 0%nat _ H Hp Nk) as (v & Nk').
      change (fst a) with (fst (fst a, v)). apply (rd_first _ _ _ _ _ _ _ (GPp g0) g); auto. }
    rewrite EA. unfold sret. do 2 f_equal. apply max_none.
  - intros HZ g k a M Sg U HM C Nk. rewrite (upto_agg j _ _ _ _ H) in U. unfold sbind.
    assert (EA : smapM (fun c => sc_prev c (fst a) (Some (Fin M)) None) srcs g = (g, Ok (map (fun _ => option_map fst (nth_error (lst j) k)) ps))).
    { apply (all_same ps PG). intros p I. destruct (PG p I) as [GPp [np Hp]]. destruct (nth_to ns d WV j p _ _ (S k) _ H Hp Nk) as (v & Nk').
      rewrite (nth_at ns d WV j _ k H), <- (nth_at ns d WV p _ k Hp). change (fst a) with (fst (fst a, v)).
      apply (rd_prev _ _ _ _ _ _ _ (GPp g0) (DZ HZ p I) g k); auto. eapply coarse_same; [|exact C]. now rewrite (list_xs ns W l j _ H), (list_xs ns W l p _ Hp). }
    rewrite EA. unfold sret. do 2 f_equal. apply max_same; [exact NE|]. intros y Ey. destruct (nth_error (lst j) k) as [b|] eqn:Nb; [|discriminate].
    cbn in Ey. injection Ey as <-. exact (asc_nth _ _ _ _ _ (asc_at ns d WV A j _ H) Nb Nk ltac:(lia)).
  - intros q v w J S. exact (shows_at ns d WV A (p_interp s) j _ H q v w S J).
Qed.

(** ** Accumulating curves *)
Lemma upto_flat g : WI g -> forall j n, nth_error ns j = Some n -> w_deep ns j = 0%nat -> forall i, upto j g i.
Proof.
  intros Ig j. induction j as [j IH] using lt_wf_ind. intros n H D i. unfold w_deep in D. rewrite (wat_eq _ _ ns j _ H) in D.
  destruct n as [|skip own tfm p|un df tfm ps|k own p]; cbn [node_deep] in D; [| | |discriminate].
  - now rewrite (upto_base j H).
  - rewrite (upto_map j _ _ _ _ H). destruct (wf_node ns j _ p W H (or_introl eq_refl)) as [m E].
    pose proof (wf_below ns j _ p W H (or_introl eq_refl)) as L. apply (IH p L m E). now rewrite (wpick_eq _ _ ns j p L) in D.
  - apply (upto_agg j _ _ _ _ H). intros p I. destruct (wf_node ns j _ p W H I) as [m E].
    pose proof (wf_below ns j _ p W H I) as L. apply (IH p L m E).
    assert (D' : (list_max (map (wpick 0%nat node_deep ns j) ps) <= 0)%nat) by lia. apply list_max_le in D'. rewrite Forall_forall in D'.
    specialize (D' _ (in_map _ _ _ I)). rewrite (wpick_eq _ _ ns j p L) in D'. unfold w_deep. lia.
Qed.

Lemma full_step p n : nth_error ns p = Some n -> snd (full p) = None \/ exists m0, snd (full p) = Some (Fin m0) /\ (0 < m0)%Qc /\ coarse m0 l.
Proof.
  intros H. rewrite (full_eq p n H). pose proof (proj2 WV p n H) as K. destruct n as [|skip own tfm p'|un df tfm ps|k own p']; cbn [w_node w_base w_map w_agg w_scan snd].
  - left. reflexivity.
  - right. destruct K as (K & _). exact K.
  - now left.
  - right. destruct K as (_ & K & _). exact K.
Qed.

Lemma good_scan j k own p : nth_error ns j = Some (WScan k own p) -> good_at p -> good_at j.
Proof.
  intros H GP g0. pose proof (or_introl eq_refl : In p (wreads (WScan k own p))) as Ip.
  destruct (wf_node ns j _ p W H Ip) as [np Hp].
  destruct (proj2 WV j _ H) as (SL & (m & -> & Hm & CM) & NZ).
  assert (EF : w_floor ns j = mx (w_floor ns p) m).
  { unfold w_floor. rewrite (wat_eq _ _ ns j _ H). cbn [node_floor step_of]. now rewrite wpick_eq by exact (wf_below ns j _ p W H Ip). }
  assert (ED : w_deep ns j = S (w_deep ns p)).
  { unfold w_deep. rewrite (wat_eq _ _ ns j _ H). cbn [node_deep]. now rewrite wpick_eq by exact (wf_below ns j _ p W H Ip). }
  rewrite EF, (full_eq j _ H). cbn [w_node w_scan fst]. rewrite (pick_eq j _ p H Ip).
  apply (lens_ready j k (Some (Fin m)) p _ _ _ _ _ g0 H).
  pose proof (list_dots ns d WV p _ Hp) as EP. pose proof (list_xs ns W l p _ Hp) as XS.
  pose proof (list_dots ns d WV j _ H) as EJ. pose proof (list_scan ns W l j _ _ _ H) as EI.
  assert (AP : ascending (lst p)) by exact (asc_at ns d WV A p _ Hp).
  assert (CP : forall M, coarse M l -> coarse M (lst p)) by (intros M; apply coarse_same; now symmetry).
  assert (RD := over_ready (fst (full p)) (steps g0) (upto p) (sh p) (lst p) (w_floor ns p) (deep_ok p) (GP g0) AP
     ltac:(eapply equally_xs2; [symmetry; exact XS|exact ES]) m Hm (CP m CM) (layer_G k) (layer_tf (fst (full p)) (snd (full p)) (Some (Fin m)) k)).
  assert (TF : tf_does (steps g0) (upto p) (lst p) (layer_G k) (layer_tf (fst (full p)) (snd (full p)) (Some (Fin m)) k)).
  { pose proof (GP g0) as GP0. rewrite EP in GP0, AP, CP |- *. apply (layer_does _ _ _ _ _ _ _ GP0); auto.
    destruct (full_step p np Hp) as [E|(m0 & E & H0 & C0)]; [now left|right]. exists m0. auto. }
  specialize (RD TF (layer_post k) (post_none k)).
  assert (PV : forall q v, value ILinear (spec (layer_G k) (lst p)) q v -> value ILinear (image (layer_G k) (layer_post k) (lst p)) q (layer_post k v)).
  { rewrite EP. intros q v. now apply (value_img k). }
  specialize (RD PV fuel). assert (LL : (length (lst p) < fuel)%nat) by (rewrite (list_len ns W l p _ Hp), dots_len; exact Lf). specialize (RD LL).
  change (image (layer_G k) (layer_post k) (lst p)) with (img k (lst p)) in RD. rewrite <- EI in RD.
  apply ready_less with (Z' := deep_ok j) in RD.
  2: { intros [X|X].
       - left. eapply nonzero_same; [symmetry; exact XS|exact X].
       - right. rewrite ED in X. split; [right; lia|]. intros g i Sg. apply (upto_flat g (proj1 Sg) p np Hp). lia. }
  destruct RD as [A1 A2 A3 A4 A5 A6 A7 A8]. split; auto.
  - intros t q It. destruct (A2 t q It) as (t' & v & E & VV & GR & UP). exists t', v. split; [exact E|]. split; [|auto].
    eapply sh_scan; [exact H|]. now rewrite <- EJ.
  - intros q v w J S. exact (shows_at ns d WV A (p_interp s) j _ H q v w S J).
Qed.

Theorem weave_ready j n : nth_error ns j = Some n -> good_at j.
Proof.
  revert n. induction j as [j IH] using lt_wf_ind. intros n H.
  assert (IHp : forall p, In p (wreads n) -> good_at p).
  { intros p I. destruct (wf_node ns j n p W H I) as [m E]. exact (IH p (wf_below ns j n p W H I) m E). }
  destruct n as [|skip own tfm p|un df tfm ps|k own p].
  - rewrite (wf_base ns j W H). apply good_base.
  - apply (good_map j _ _ _ _ H). apply IHp. now left.
  - now apply (good_agg j _ _ _ _ H).
  - apply (good_scan j _ _ _ H). apply IHp. now left.
Qed.
End Net.
