(** Histories of networks of accumulating curves, maps and aggregates. *)
From Coq Require Import List ZArith QArith Qcanon Bool Sorting.Sorted Lia Arith.
From Verif Require Import Base Num NumFacts Interval IntervalFacts Curve BaseFacts.
From Verif Require Import Points PointsSpec PointsIdx PointsQuery PointsDom PointsOps UpdFacts PointsMut PointsReset PointsReplace PointsCover PointsHist PointsTop PointsDec.
From Verif Require Import Graph GraphFacts GraphSettle GraphTop.
From Verif Require Import BaseTop Combine CombineFacts CombineTop CombineLine Scan ScanFacts ScanSource ScanInv ScanTf SmaFacts SmaInv ScanTop ScanView ScanSample ScanSampleFacts ScanSampleAcc Tower TowerFacts TowerTop TowerHist TowerMean Weave WeaveList WeaveFacts WeaveReady WeaveTell.
Import ListNotations.

(** ** The lists, by equations *)
(** [out j]: the points of curve [j], one at each x of the source's points [d] *)
Definition node_figures (d : list (Qc * Qc)) (out : nat -> list (Qc * Qc)) (j : nat) (n : wnode xq) : Prop :=
  match n with
  | WBase => out j = d
  | WMap _ _ tfm p => length (out j) = length d /\ forall k, (k < length d)%nat ->
      at_x (out j) k = at_x d k /\ tfm (Fin (at_x d k)) (Some (Fin (at_y (out p) k))) = Ok (Some (Fin (at_y (out j) k)))
  | WAgg _ _ tfm ps => length (out j) = length d /\ forall k, (k < length d)%nat ->
      at_x (out j) k = at_x d k /\ tfm (Fin (at_x d k)) (map (fun p => Some (Fin (at_y (out p) k))) ps) = Ok (Some (Fin (at_y (out j) k)))
  | WScan k _ p => out j = layer_out k (out p)
  end.
(** sensible parameters: minimum steps of at most the spacing, transforms that
    do not raise, and no point at x = 0 if an accumulating curve asks for
    x_previous where two are over one another below it *)
Definition node_params (ns : list (wnode xq)) (d : list (Qc * Qc)) (n : wnode xq) : Prop :=
  match n with
  | WBase => True
  | WMap skip own tfm p => step_ok own d /\ forall q v, (skip = true -> v <> None) -> exists w, tfm (Fin q) v = Ok w
  | WAgg _ _ tfm ps => forall q vs, length vs = length ps -> exists w, tfm (Fin q) vs = Ok w
  | WScan k own p => sound_layer k /\ step_ok own d /\ (looks_back k = true -> nonzero (dots d) \/ (w_deep ns p <= 1)%nat)
  end.
Definition sensible (ns : list (wnode xq)) (d : list (Qc * Qc)) (out : nat -> list (Qc * Qc)) : Prop :=
  wf ns /\ forall j n, nth_error ns j = Some n -> node_params ns d n /\ node_figures d out j n.

Lemma list_ext {B} (a b : list B) : length a = length b -> (forall k, (k < length a)%nat -> nth_error a k = nth_error b k) -> a = b.
Proof.
  revert b. induction a as [|x a IH]; intros [|y b] L H; try discriminate; [reflexivity|].
  pose proof (H 0%nat ltac:(cbn; lia)) as E. cbn in E. injection E as ->. f_equal. apply IH; [cbn in L; lia|].
  intros k Lk. apply (H (S k)). cbn. lia.
Qed.

Section Figures.
Context (ns : list (wnode xq)) (d : list (Qc * Qc)) (out : nat -> list (Qc * Qc)) (SE : sensible ns d out).
Let W : wf ns := proj1 SE.
Lemma figures_list j n : nth_error ns j = Some n -> w_list ns (dots d) j = dots (out j).
Proof.
  revert n. induction j as [j IH] using lt_wf_ind. intros n H. destruct (proj2 SE j n H) as [P F].
  assert (IHp : forall p, In p (wreads n) -> w_list ns (dots d) p = dots (out p) /\ length (out p) = length d /\ forall k, (k < length d)%nat -> at_x (out p) k = at_x d k).
  { intros p I. destruct (wf_node ns j n p W H I) as [m E]. pose proof (IH p (wf_below ns j n p W H I) m E) as X. split; [exact X|].
    assert (LL : length (out p) = length d) by (pose proof (list_len ns W (dots d) p m E) as Y; rewrite X, !dots_len in Y; exact Y). split; [exact LL|].
    intros k Lk. pose proof (list_xs ns W (dots d) p m E) as Y. rewrite X in Y. apply (f_equal (fun l => nth_error l k)) in Y. rewrite !nth_error_map in Y.
    rewrite !dots_at in Y by lia. cbn in Y. congruence. }
  destruct n as [|skip own tfm p|un df tfm ps|k own p]; cbn [node_figures] in F.
  - rewrite (wf_base ns j W H) in *. rewrite (list_base ns W). now rewrite F.
  - destruct (IHp p (or_introl eq_refl)) as (X & L & XS). rewrite (list_map ns W _ j _ _ _ _ H), X. destruct F as [LF F].
    apply list_ext; [rewrite map_length, !dots_len; lia|]. intros k Lk. rewrite map_length, dots_len in Lk. destruct (F k ltac:(lia)) as [F1 F2].
    rewrite nth_error_map, !dots_at by lia. cbn [option_map fst snd]. unfold map_val. rewrite andb_false_r, XS by lia. rewrite F2, F1. reflexivity.
  - rewrite (list_agg ns W _ j _ _ _ _ H). destruct F as [LF F].
    apply list_ext; [rewrite map_length, seq_length, !dots_len; lia|]. intros k Lk. rewrite map_length, seq_length, dots_len in Lk. destruct (F k ltac:(lia)) as [F1 F2].
    rewrite nth_error_map. assert (Nsq : nth_error (seq 0 (length (dots d))) k = Some k) by (rewrite (nth_error_nth' _ 0%nat) by (rewrite seq_length, dots_len; lia); rewrite seq_nth by (rewrite dots_len; lia); reflexivity).
    rewrite Nsq. cbn [option_map]. rewrite dots_at by lia. rewrite (nth_error_nth _ _ no_pt (dots_at d k ltac:(lia))). cbn [fst].
    assert (E : map (fun p => snd (nth k (w_list ns (dots d) p) no_pt)) ps = map (fun p => Some (Fin (at_y (out p) k))) ps).
    { apply map_ext_in. intros p I. destruct (IHp p I) as (X & L & _). rewrite X. rewrite (nth_error_nth _ _ no_pt (dots_at (out p) k ltac:(lia))). reflexivity. }
    rewrite E, F2, F1. reflexivity.
  - destruct (IHp p (or_introl eq_refl)) as (X & _). rewrite (list_scan ns W _ j _ _ _ H), X, F. apply img_dots. apply P.
Qed.
Lemma figures_out j n : nth_error ns j = Some n -> w_out ns d j = out j.
Proof. intros H. unfold w_out. rewrite (figures_list j n H). apply undot_dots. Qed.
Lemma figures_woven : woven ns d.
Proof.
  split; [exact W|]. intros j n H. destruct (proj2 SE j n H) as [P F]. pose proof (figures_list j n H) as E. destruct n as [|skip own tfm p|un df tfm ps|k own p]; cbn [node_ok node_params] in *.
  - exact Logic.I.
  - destruct P as [P1 P2]. split; [exact P1|]. split; [|rewrite E; apply dots_numbers]. intros q v. unfold map_val.
    destruct skip; cbn [andb]; [|apply P2; discriminate]. destruct v as [v|]; [|eauto]. apply P2. discriminate.
  - split; [exact P|]. rewrite E. apply dots_numbers.
  - exact P.
Qed.
Lemma figures_len j n : nth_error ns j = Some n -> length (out j) = length d.
Proof. intros H. pose proof (list_len ns W (dots d) j n H) as X. rewrite (figures_list j n H), !dots_len in X. exact X. Qed.
Lemma figures_xs j n k : nth_error ns j = Some n -> (k < length d)%nat -> at_x (out j) k = at_x d k.
Proof.
  intros H L. pose proof (list_xs ns W (dots d) j n H) as Y. rewrite (figures_list j n H) in Y. apply (f_equal (fun l => nth_error l k)) in Y. rewrite !nth_error_map in Y.
  rewrite !dots_at in Y by (rewrite ?(figures_len j n H); lia). cbn in Y. congruence.
Qed.
End Figures.

(** the values of curve [j]: the source's; transforms of the values of the curves
    it reads; for an accumulating curve, linear between its points, None outside *)
Inductive worth (ns : list (wnode xq)) (ip : interp) (d : list (Qc * Qc)) (out : nat -> list (Qc * Qc)) : nat -> Qc -> num -> Prop :=
| wo_base j q v : nth_error ns j = Some WBase -> value ip (dots d) q v -> worth ns ip d out j q v
| wo_skip j own tfm p q : nth_error ns j = Some (WMap true own tfm p) -> worth ns ip d out p q None -> worth ns ip d out j q None
| wo_map j skip own tfm p q u v : nth_error ns j = Some (WMap skip own tfm p) -> worth ns ip d out p q u ->
    (skip = true -> u <> None) -> tfm (Fin q) u = Ok v -> worth ns ip d out j q v
| wo_agg j un df tfm ps q us v : nth_error ns j = Some (WAgg un df tfm ps) -> i_contains (pts_domain (dots d)) (Fin q) = true ->
    Forall2 (fun p u => worth ns ip d out p q u) ps us -> tfm (Fin q) us = Ok v -> worth ns ip d out j q v
| wo_out j un df tfm ps q : nth_error ns j = Some (WAgg un df tfm ps) -> i_contains (pts_domain (dots d)) (Fin q) = false -> worth ns ip d out j q df
| wo_scan j k own p q v : nth_error ns j = Some (WScan k own p) -> value ILinear (dots (out j)) q v -> worth ns ip d out j q v.

Lemma worth_shows ns ip d out (SE : sensible ns d out) j : forall q v, worth ns ip d out j q v <-> shows ns ip d j q v.
Proof.
  pose proof (proj1 SE) as W. induction j as [j IH] using lt_wf_ind. intros q v. split; intros H.
  - inversion H as [j1 q1 v1 N1 V1|j1 ow1 tf1 p1 q1 N1 S1|j1 sk1 ow1 tf1 p1 q1 u1 v1 N1 S1 K1 T1|j1 un1 df1 tf1 ps1 q1 us1 v1 N1 C1 F1 T1|j1 un1 df1 tf1 ps1 q1 N1 C1|j1 k1 ow1 p1 q1 v1 N1 V1]; subst.
    + now apply sh_base.
    + eapply sh_map; [exact N1|apply (IH p1); [exact (wf_below ns j _ p1 W N1 (or_introl eq_refl))|exact S1]|reflexivity].
    + eapply sh_map; [exact N1|apply (IH p1); [exact (wf_below ns j _ p1 W N1 (or_introl eq_refl))|exact S1]|].
      unfold map_val. destruct sk1; cbn [andb]; [|exact T1]. destruct u1; [exact T1|]. now destruct K1.
    + eapply sh_agg; [exact N1|exact C1| |exact T1].
      assert (B : forall p, In p ps1 -> (p < j)%nat) by (intros p I; exact (wf_below ns j _ p W N1 I)).
      clear -IH B F1. induction F1 as [|p u ps us S F IHF]; constructor; [apply IH; auto; apply B; now left|]. apply IHF. intros p' I. apply B. now right.
    + eapply sh_out; eauto.
    + eapply sh_scan; [exact N1|]. now rewrite (figures_out ns d out SE j _ N1).
  - inversion H as [j1 q1 v1 N1 V1|j1 sk1 ow1 tf1 p1 q1 u1 v1 N1 S1 T1|j1 un1 df1 tf1 ps1 q1 us1 v1 N1 C1 F1 T1|j1 un1 df1 tf1 ps1 q1 N1 C1|j1 k1 ow1 p1 q1 v1 N1 V1]; subst.
    + now apply wo_base.
    + apply (IH p1) in S1; [|exact (wf_below ns j _ p1 W N1 (or_introl eq_refl))]. unfold map_val in T1.
      destruct sk1; cbn [andb] in T1; [|eapply wo_map; [exact N1|exact S1|discriminate|exact T1]].
      destruct u1 as [u1|]; [eapply wo_map; [exact N1|exact S1|discriminate|exact T1]|]. injection T1 as <-. eapply wo_skip; eauto.
    + eapply wo_agg; [exact N1|exact C1| |exact T1].
      assert (B : forall p, In p ps1 -> (p < j)%nat) by (intros p I; exact (wf_below ns j _ p W N1 I)).
      clear -IH B F1. induction F1 as [|p u ps us S F IHF]; constructor; [apply IH; auto; apply B; now left|]. apply IHF. intros p' I. apply B. now right.
    + eapply wo_out; eauto.
    + eapply wo_scan; [exact N1|]. now rewrite <- (figures_out ns d out SE j _ N1).
Qed.

(** ** Histories *)
Definition spun (ns : list (wnode xq)) (s : pts xq num) (d : list (Qc * Qc)) (out : nat -> list (Qc * Qc)) : Prop :=
  p_pts s = dots d /\ equally_spaced (dots d) /\ coarse min_step (dots d) /\ sensible ns d out.

(** a question to a curve *)
Inductive asked (c : scrv xq (gst xq)) (g : gst xq) : gst xq -> Prop :=
| as_y x g' r : sc_y c x g = (g', r) -> asked c g g'
| as_dom g' r : sc_dom c g = (g', r) -> asked c g g'
| as_next x ms lim g' r : sc_next c x ms lim g = (g', r) -> asked c g g'
| as_prev x ms lim g' r : sc_prev c x ms lim g = (g', r) -> asked c g g'.

(** A network over a Points object: curves made at any time over curves that
    exist; questions to any of them; operations on the Points object with their
    notifications. *)
Inductive weave : list (wnode xq) -> pts xq num -> gst xq -> Prop :=
| wv_base s : honest_history s -> weave [WBase] s [blank]
| wv_new ns s g n : weave ns s g -> wf (ns ++ [n]) -> weave (ns ++ [n]) s (g ++ [blank])
| wv_ask fuel ns s d out g j g' : weave ns s g -> spun ns s d out -> (length d < fuel)%nat -> (j < length ns)%nat ->
    asked (w_curve fuel (p_crv s) ns j) g g' -> weave ns s g'
| wv_read ns s g : weave ns s g -> weave ns (p_touch s) g
| wv_op fuel ns s g o s' evs g' log : weave ns s g -> op_ok o -> run_op s o = (s', evs, Ok tt) ->
    (p_uniform s' = true -> equally_spaced (p_pts s')) -> (length ns <= fuel)%nat -> w_tell ns fuel g evs = Ok (g', log) -> weave ns s' g'
| wv_refused ns s g o s' e : weave ns s g -> op_ok o -> run_op s o = (s', [], Err e) -> weave ns s' g.

(** the steps do not change anything *)
Section Same.
Context (ns : list (wnode xq)) (W : wf ns) (fuel : nat) (c : crv xq num).
Notation full j := (nth j (w_curves fuel c ns) nothing).
Lemma smapM_same {B C} (f : B -> sr (gst xq) C) l g : (forall x, In x l -> fst (f x g) = g) -> fst (smapM f l g) = g.
Proof.
  induction l as [|x l IH]; intros H; [reflexivity|]. cbn [smapM]. unfold sbind, sret. pose proof (H x (or_introl eq_refl)) as E.
  destruct (f x g) as [g1 [y|e]]; cbn [fst] in *; [|exact E]. subst g1. specialize (IH (fun x I => H x (or_intror I))).
  destruct (smapM f l g) as [g2 [ys|e]]; exact IH.
Qed.
Lemma step_same j n : nth_error ns j = Some n -> forall x ms lim g, fst (sc_next (fst (full j)) x ms lim g) = g /\ fst (sc_prev (fst (full j)) x ms lim g) = g.
Proof.
  revert n. induction j as [j IH] using lt_wf_ind. intros n H x ms lim g.
  assert (FE : full j = w_node fuel c j (wpick nothing (w_node fuel c) ns j) n) by exact (wat_eq nothing (w_node fuel c) ns j n H).
  assert (PE : forall p, In p (wreads n) -> wpick nothing (w_node fuel c) ns j p = full p) by (intros p I; exact (wpick_eq nothing (w_node fuel c) ns j p (wf_below ns j n p W H I))).
  assert (IHp : forall p, In p (wreads n) -> forall x ms lim g, fst (sc_next (fst (full p)) x ms lim g) = g /\ fst (sc_prev (fst (full p)) x ms lim g) = g).
  { intros p I. destruct (wf_node ns j n p W H I) as [m E]. exact (IH p (wf_below ns j n p W H I) m E). }
  rewrite FE. destruct n as [|skip own tfm p|un df tfm ps|k own p]; cbn [w_node].
  - split; reflexivity.
  - rewrite PE by now left. apply (IHp p (or_introl eq_refl)).
  - cbn [w_agg fst sc_next sc_prev]. unfold sbind, sret.
    assert (E1 : fst (smapM (fun c0 => sc_next c0 x ms lim) (map (fun p => fst (wpick nothing (w_node fuel c) ns j p)) ps) g) = g).
    { apply smapM_same. intros y I. apply in_map_iff in I as (p & <- & I). rewrite PE by exact I. apply (IHp p I). }
    assert (E2 : fst (smapM (fun c0 => sc_prev c0 x ms lim) (map (fun p => fst (wpick nothing (w_node fuel c) ns j p)) ps) g) = g).
    { apply smapM_same. intros y I. apply in_map_iff in I as (p & <- & I). rewrite PE by exact I. apply (IHp p I). }
    destruct (smapM (fun c0 => sc_next c0 x ms lim) _ g) as [g1 [r1|e1]], (smapM (fun c0 => sc_prev c0 x ms lim) _ g) as [g2 [r2|e2]]; cbn [fst] in *; subst; split; reflexivity.
  - rewrite PE by now left. specialize (IHp p (or_introl eq_refl)). destruct (full p) as [src ms0]. cbn [fst] in IHp.
    cbn [w_scan at_scrv fst snd sc_next sc_prev]. unfold at_node, over. cbn [sc_next sc_prev]. unfold st_next, st_prev, st_step, sbind, get_acc, of_src, sret, sfail. cbn [fst snd].
    split.
    + pose proof (proj1 (IHp x (resolve_min_step own ms) lim g)) as X.
      destruct (p_x_next _ _ _ _) as [[v|]|e]; [destruct (n_eqb v n_zero)| |]; cbn [fst snd]; try apply put_same;
      (destruct (sc_next src x (resolve_min_step own ms) lim g) as [g1 r]; cbn [fst snd] in *; subst g1; apply put_same).
    + pose proof (proj2 (IHp x (resolve_min_step own ms) lim g)) as X.
      destruct (p_x_previous _ _ _ _) as [[v|]|e]; [destruct (n_eqb v n_zero)| |]; cbn [fst snd]; try apply put_same;
      (destruct (sc_prev src x (resolve_min_step own ms) lim g) as [g1 r]; cbn [fst snd] in *; subst g1; apply put_same).
Qed.
End Same.

Lemma blank_at ns l n : node_at ns l n blank.
Proof.
  destruct (acc_init_eq (W := num) ILinear) as (_ & E2 & E3 & E4 & E5).
  assert (VU : forall ll : list (xq * num), vupd ll blank) by (intros ll; split; [split; reflexivity|now left]).
  destruct n as [| | |k own p]; cbn [node_at]; auto. split; [apply VU|]. exists 0%nat. apply state0; auto.
Qed.
Lemma at_app ns ms l n a : (forall p, In p (wreads n) -> (p < length ns)%nat) -> node_at (ns ++ ms) l n a <-> node_at ns l n a.
Proof. intros B. destruct n as [| | |k own p]; cbn [node_at]; try tauto. rewrite (list_app ns ms l p) by (apply B; now left). tauto. Qed.

Lemma asked_inv fuel ns s d out g g' j : good s -> spun ns s d out -> (length d < fuel)%nat -> (j < length ns)%nat ->
  asked (w_curve fuel (p_crv s) ns j) g g' -> WAt ns (dots d) g -> WAt ns (dots d) g'.
Proof.
  intros GS (D & ES & CS & SE) Lf Lj AK HI. pose proof (figures_woven ns d out SE) as WV. pose proof (proj1 SE) as W.
  assert (A : ascending (dots d)) by (rewrite <- D; apply GS).
  destruct (nth_error ns j) as [n|] eqn:H; [|apply nth_error_None in H; lia].
  pose proof (weave_ready ns d WV A ES CS s GS D fuel Lf j n H g) as RD.
  assert (S0 : steps ns d g g) by (apply steps_refl; exact HI). unfold w_curve in AK.
  destruct AK as [x g' r E|g' r E|x ms lim g' r E|x ms lim g' r E].
  - pose proof (proj1 (rd_any _ _ _ _ _ _ _ RD g x S0)) as X. rewrite E in X. apply X.
  - destruct (rd_dom _ _ _ _ _ _ _ RD g S0) as (g1 & E1 & G1). rewrite E in E1. injection E1 as -> _. apply G1.
  - pose proof (proj1 (step_same ns W fuel (p_crv s) j n H x ms lim g)) as X. rewrite E in X. cbn in X. now subst.
  - pose proof (proj2 (step_same ns W fuel (p_crv s) j n H x ms lim g)) as X. rewrite E in X. cbn in X. now subst.
Qed.

Theorem weave_inv ns s g : weave ns s g -> good s /\ wf ns /\ WAt ns (p_pts s) g.
Proof.
  induction 1 as [s H|ns s g n _ (GS & W & HI) W'|fuel ns s d out g j g' _ (GS & W & HI) SP L Lj AK|ns s g _ (GS & W & HI)|fuel ns s g o s' evs g' log _ (GS & W & HI) O R T Lf E|ns s g o s' e _ (GS & W & HI) O R].
  - split; [now apply honest_history_good|]. split.
    + split; [reflexivity|]. intros [|[|j]] n Hn; try discriminate. cbn in Hn. injection Hn as <-. split; [intros p []|now left].
    + split; [reflexivity|]. intros [|[|j]] n Hn; try discriminate. cbn in Hn. injection Hn as <-. exact Logic.I.
  - split; [exact GS|]. split; [exact W'|]. destruct HI as [LG HI]. split; [rewrite !app_length, LG; reflexivity|].
    intros j m Hm. pose proof (proj1 (proj2 W' j m Hm)) as B.
    assert (Lj : (j < length (ns ++ [n]))%nat) by (apply nth_error_Some; congruence). rewrite app_length in Lj. cbn in Lj.
    assert (B' : forall p, In p (wreads m) -> (p < length ns)%nat) by (intros p I; specialize (B p I); lia).
    apply (at_app ns [n]); [exact B'|]. unfold acc_at. destruct (Nat.eq_dec j (length ns)) as [->|Nj].
    + rewrite <- LG, nth_middle. apply blank_at.
    + rewrite nth_error_app1 in Hm by lia. rewrite app_nth1 by lia. now apply HI.
  - split; [exact GS|]. split; [exact W|]. pose proof (proj1 SP) as D. rewrite D in *. eapply asked_inv; eauto.
  - split; [now apply good_touch|]. auto.
  - assert (GS' : good s') by (apply good_calm; split; [eapply step_calm; eauto|exact T]).
    split; [exact GS'|]. split; [exact W|].
    destruct (op_announces s o s' evs GS O R) as [[-> EL]|(D & q & -> & KD & NE & S & K)].
    + cbn in E. injection E as <- _. now rewrite EL.
    + destruct (tell_ok ns W (p_pts s) (p_pts s') (proj1 GS) (proj1 GS') D q S K KD NE fuel g Lf HI) as (g1 & LB & LE & E1 & I1 & _).
      rewrite E in E1. injection E1 as -> _. exact I1.
  - destruct (refused_same s o s' e GS O R) as [->| ->]; [auto|]. split; [now apply good_touch|]. auto.
Qed.

(** ** The answers *)
Section Answers.
Context (ns : list (wnode xq)) (s : pts xq num) (g : gst xq) (H : weave ns s g) (d : list (Qc * Qc)) (out : nat -> list (Qc * Qc)) (SP : spun ns s d out).
Context (fuel : nat) (Lf : (length d < fuel)%nat).
Let GS : good s := proj1 (weave_inv ns s g H).
Let D : p_pts s = dots d := proj1 SP.
Let SE : sensible ns d out := proj2 (proj2 (proj2 SP)).
Lemma sp_asc : ascending (dots d).
Proof. rewrite <- D. apply GS. Qed.
Lemma sp_ready j n : nth_error ns j = Some n -> ready (w_curve fuel (p_crv s) ns j) (steps ns d g) (upto ns d j) (shows ns (p_interp s) d j) (w_list ns (dots d) j) (w_floor ns j) (deep_ok ns d j).
Proof.
  intros Hj. exact (weave_ready ns d (figures_woven ns d out SE) sp_asc (proj1 (proj2 SP)) (proj1 (proj2 (proj2 SP))) s GS D fuel Lf j n Hj g).
Qed.
Lemma sp_steps : steps ns d g g.
Proof. apply steps_refl. pose proof (proj2 (proj2 (weave_inv ns s g H))) as HI. rewrite D in HI. exact HI. Qed.
Lemma sp_nth j n k : nth_error ns j = Some n -> (k < length d)%nat -> nth_error (w_list ns (dots d) j) k = Some (Fin (at_x d k), Some (Fin (at_y (out j) k))).
Proof.
  intros Hj Lk. rewrite (figures_list ns d out SE j n Hj), dots_at by (rewrite (figures_len ns d out SE j n Hj); lia).
  now rewrite (figures_xs ns d out SE j n k Hj Lk).
Qed.
Lemma sp_coarse j n M : nth_error ns j = Some n -> coarse M (dots d) -> coarse M (w_list ns (dots d) j).
Proof. intros Hj. apply coarse_same. symmetry. exact (list_xs ns (proj1 SE) (dots d) j n Hj). Qed.
Lemma weave_value j q : (j < length ns)%nat ->
  exists v, snd (sc_y (w_curve fuel (p_crv s) ns j) (Fin q) g) = Ok v /\ forall w, worth ns (p_interp s) d out j q w <-> w = v.
Proof.
  intros Lj. destruct (nth_error ns j) as [n|] eqn:Hj; [|apply nth_error_None in Hj; lia].
  destruct (rd_y _ _ _ _ _ _ _ (sp_ready j n Hj) g q sp_steps) as (g' & v & E & SH & _). exists v. rewrite E. split; [reflexivity|].
  intros w. rewrite (worth_shows ns (p_interp s) d out SE). split; [|intros ->; exact SH]. intros SW.
  exact (shows_unique ns d (figures_woven ns d out SE) sp_asc (p_interp s) j q w v SW SH).
Qed.
Lemma weave_point j k : (j < length ns)%nat -> (k < length d)%nat ->
  snd (sc_y (w_curve fuel (p_crv s) ns j) (Fin (at_x d k)) g) = Ok (Some (Fin (at_y (out j) k))).
Proof.
  intros Lj Lk. destruct (nth_error ns j) as [n|] eqn:Hj; [|apply nth_error_None in Hj; lia].
  destruct (rd_y _ _ _ _ _ _ _ (sp_ready j n Hj) g (at_x d k) sp_steps) as (g' & v & E & SH & _). rewrite E. cbn [snd]. f_equal.
  apply (shows_at ns d (figures_woven ns d out SE) sp_asc (p_interp s) j n Hj (at_x d k) v _ SH).
  rewrite (figures_list ns d out SE j n Hj). eapply nth_error_In with (n := k). rewrite dots_at by (rewrite (figures_len ns d out SE j n Hj); lia).
  now rewrite (figures_xs ns d out SE j n k Hj Lk).
Qed.
Lemma weave_domain j : (j < length ns)%nat -> snd (sc_dom (w_curve fuel (p_crv s) ns j) g) = Ok (pts_domain (dots d)).
Proof.
  intros Lj. destruct (nth_error ns j) as [n|] eqn:Hj; [|apply nth_error_None in Hj; lia].
  destruct (rd_dom _ _ _ _ _ _ _ (sp_ready j n Hj) g sp_steps) as (g' & E & _). rewrite E. cbn [snd]. f_equal.
  exact (dom_at ns d (figures_woven ns d out SE) j n Hj).
Qed.
Lemma weave_next j q M lim : (j < length ns)%nat -> (w_floor ns j <= M)%Qc ->
  exists y, sc_next (w_curve fuel (p_crv s) ns j) (Fin q) (Some (Fin M)) lim g = (g, Ok y) /\ least_from (dots d) (Fin (q + M)%Qc) y.
Proof.
  intros Lj HM. destruct (nth_error ns j) as [n|] eqn:Hj; [|apply nth_error_None in Hj; lia].
  eexists. split; [apply (rd_follow _ _ _ _ _ _ _ (sp_ready j n Hj) g q M lim sp_steps HM)|].
  unfold following. rewrite (list_xs ns (proj1 SE) (dots d) j n Hj). apply find_least. exact sp_asc.
Qed.
Lemma weave_next_point j k M lim : (j < length ns)%nat -> (k < length d)%nat -> (0 < M)%Qc -> coarse M (dots d) ->
  sc_next (w_curve fuel (p_crv s) ns j) (Fin (at_x d k)) (Some (Fin M)) lim g = (g, Ok (if (S k <? length d)%nat then Some (Fin (at_x d (S k))) else None)).
Proof.
  intros Lj Lk HM C. destruct (nth_error ns j) as [n|] eqn:Hj; [|apply nth_error_None in Hj; lia].
  pose proof (sp_nth j n k Hj Lk) as Nk.
  pose proof (rd_next _ _ _ _ _ _ _ (sp_ready j n Hj) g k _ M lim sp_steps HM (sp_coarse j n M Hj C) Nk) as E. cbn [fst] in E. rewrite E. do 2 f_equal.
  destruct (Nat.ltb_spec (S k) (length d)) as [L|L].
  - rewrite (sp_nth j n (S k) Hj L). reflexivity.
  - rewrite (proj2 (nth_error_None _ _)); [reflexivity|]. rewrite (list_len ns (proj1 SE) (dots d) j n Hj), dots_len. exact L.
Qed.
Lemma weave_first j M : (j < length ns)%nat -> (0 < length d)%nat -> (0 < M)%Qc ->
  sc_prev (w_curve fuel (p_crv s) ns j) (Fin (at_x d 0)) (Some (Fin M)) None g = (g, Ok None).
Proof.
  intros Lj Ld HM. destruct (nth_error ns j) as [n|] eqn:Hj; [|apply nth_error_None in Hj; lia].
  pose proof (sp_nth j n 0 Hj Ld) as Nk.
  exact (rd_first _ _ _ _ _ _ _ (sp_ready j n Hj) g _ M sp_steps HM Nk).
Qed.
Lemma weave_prev j k M g' r : (j < length ns)%nat -> (S k < length d)%nat -> (0 < M)%Qc -> coarse M (dots d) -> nonzero (dots d) \/ (w_deep ns j <= 1)%nat ->
  sc_y (w_curve fuel (p_crv s) ns j) (Fin (at_x d (S k))) g = (g', r) ->
  sc_prev (w_curve fuel (p_crv s) ns j) (Fin (at_x d (S k))) (Some (Fin M)) None g' = (g', Ok (Some (Fin (at_x d k)))).
Proof.
  intros Lj Lk HM C HZ EY. destruct (nth_error ns j) as [n|] eqn:Hj; [|apply nth_error_None in Hj; lia].
  pose proof (sp_ready j n Hj) as RD. pose proof (sp_nth j n (S k) Hj Lk) as Nk.
  destruct (rd_y _ _ _ _ _ _ _ RD g (at_x d (S k)) sp_steps) as (g1 & v & E & _ & [I1 _] & U). rewrite EY in E. injection E as <- _.
  pose proof (rd_prev _ _ _ _ _ _ _ RD HZ g' k _ M I1 (U _ _ Nk) HM (sp_coarse j n M Hj C) Nk) as E. cbn [fst] in E. rewrite E. do 2 f_equal.
  rewrite (sp_nth j n k Hj) by lia. reflexivity.
Qed.
End Answers.

(** the same answers for any two histories *)
Theorem weave_same fuel fuel' ns s g s' g' d out j q : weave ns s g -> weave ns s' g' -> spun ns s d out -> spun ns s' d out -> p_interp s = p_interp s' ->
  (length d < fuel)%nat -> (length d < fuel')%nat -> (j < length ns)%nat ->
  snd (sc_y (w_curve fuel (p_crv s) ns j) (Fin q) g) = snd (sc_y (w_curve fuel' (p_crv s') ns j) (Fin q) g').
Proof.
  intros H H' SP SP' IE L L' Lj. destruct (weave_value ns s g H d out SP fuel L j q Lj) as (v & E & U). destruct (weave_value ns s' g' H' d out SP' fuel' L' j q Lj) as (v' & E' & U').
  rewrite E, E'. f_equal. apply U'. rewrite <- IE. now apply U.
Qed.

(** an operation on the points: no curve raises, every curve but the source hears of it, and all are idle again *)
Theorem weave_notifies fuel ns s g o s' evs : weave ns s g -> op_ok o -> run_op s o = (s', evs, Ok tt) ->
  (p_uniform s' = true -> equally_spaced (p_pts s')) -> (length ns <= fuel)%nat ->
  exists g' LB LE, w_tell ns fuel g evs = Ok (g', LB ++ LE) /\ weave ns s' g' /\
  (evs = [] /\ g' = g /\ LB = [] /\ LE = [] /\ p_pts s' = p_pts s \/
   exists D, evs = [EvBegin D; EvEnd D] /\ keeps D (p_pts s) (p_pts s') /\
    (forall en, In en LB -> l_end en = false /\ i_start (l_arg en) = i_start D /\ i_so (l_arg en) = i_so D) /\
    (forall en, In en LE -> l_end en = true) /\
    forall j, (0 < j < length ns)%nat ->
      is_updating (a_upd (acc_at g' j)) = false /\ u_dom (a_upd (acc_at g' j)) = None /\
      (exists en b, In en LB /\ l_node en = j /\ l_not en = Some b) /\
      (forall en, In en LB -> l_node en = j -> exists en' x, In en' LE /\ l_node en' = j /\ l_not en' = Some x /\ i_superset x (l_arg en) = true) /\
      keeps D (w_list ns (p_pts s) j) (w_list ns (p_pts s') j)).
Proof.
  intros H O R T Lf. destruct (weave_inv ns s g H) as (GS & W & HI).
  assert (GS' : good s') by (apply good_calm; split; [eapply step_calm; eauto|exact T]).
  destruct (op_announces s o s' evs GS O R) as [[-> EL]|(D & q & -> & KD & NE & S & K)].
  - exists g, [], []. split; [reflexivity|]. split; [eapply (wv_op fuel); eauto; reflexivity|]. left. auto.
  - destruct (tell_ok ns W (p_pts s) (p_pts s') (proj1 GS) (proj1 GS') D q S K KD NE fuel g Lf HI) as (g1 & LB & LE & E1 & I1 & B1 & B2 & B3).
    exists g1, LB, LE. split; [exact E1|]. split; [eapply (wv_op fuel); eauto|]. right. exists D. split; [reflexivity|]. split; [exact K|].
    split; [intros en I; destruct (B1 en I) as [X [Y Z]]; auto|]. split; [exact B2|].
    intros j Lj. destruct (B3 j Lj) as (X1 & X2 & X3 & X4). split; [unfold is_updating; destruct X1 as [-> _]; reflexivity|]. split; [exact X2|]. split; [exact X3|]. split; [exact X4|].
    apply (list_keeps ns W D (p_pts s) (p_pts s') j (nth j ns WBase) K). apply nth_error_nth'. lia.
Qed.
