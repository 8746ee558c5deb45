(** Histories of chains of accumulating curves. *)
From Coq Require Import List ZArith QArith Qcanon Bool Sorting.Sorted Lia Arith.
From Verif Require Import Base Num NumFacts Interval IntervalFacts Curve BaseFacts.
From Verif Require Import Points PointsSpec PointsIdx PointsQuery PointsDom PointsOps PointsMut PointsReset PointsReplace PointsCover PointsHist PointsTop PointsDec.
From Verif Require Import BaseTop Combine CombineFacts CombineTop CombineLine Scan ScanFacts ScanSource ScanInv ScanTf SmaFacts SmaInv ScanTop ScanView ScanSample ScanSampleFacts ScanSampleAcc Tower TowerFacts TowerTop.
Import ListNotations.

(** ** The points at the bottom *)
Lemma still_ready (s : pts xq num) : good s ->
  ready (still (p_crv s)) (fun _ => True) (fun _ _ => True) (value (p_interp s) (p_pts s)) (p_pts s) 0%Qc True.
Proof.
  intros GS. pose proof (proj1 GS) as A. assert (D : p_dom s = pts_domain (p_pts s)) by (apply calm_dom, good_calm, GS).
  split; cbn [still sc_dom sc_y sc_next sc_prev p_crv c_dom c_y c_next c_prev].
  - intros [] _. exists tt. rewrite D. split; [reflexivity|]. now apply grows_refl.
  - intros [] q _. destruct (p_y_value s q (fun _ => lerp_total_num) GS) as (v & E & VV). exists tt, v. rewrite E.
    split; [reflexivity|]. split; [exact VV|]. split; [now apply grows_refl|auto].
  - intros [] x _. now apply grows_refl.
  - intros [] k p M lim _ HM C N. destruct (asc_fin _ _ _ A N) as [q Q]. destruct p as [x v]. cbn in Q. injection Q as ->. cbn [fst].
    now rewrite (knot_next s M k q v lim GS C HM N).
  - intros [] q M lim _ _. now rewrite p_next_following.
  - intros [] p M _ HM N. destruct (asc_fin _ _ _ A N) as [q Q]. destruct p as [x v]. cbn in Q. injection Q as ->. cbn [fst].
    destruct (p_x_previous_spec s (Fin q) M None GS ltac:(discriminate)) as (y & E & Q). rewrite E.
    destruct y as [y|]; [|reflexivity]. exfalso. destruct Q as ((w & J) & L & _).
    destruct (ascending_fin _ _ A J) as (r & u & X). injection X as -> ->.
    assert (HH : head_opt (p_pts s) = Some (Fin q, v)) by (destruct (p_pts s); [discriminate|exact N]).
    pose proof (ascending_head_le _ _ _ A HH J) as B. cbn [fst] in B. apply le_x_fin in B. cbn [xq_sub] in L. apply le_x_fin in L. clear -HM B L. qc_lra.
  - intros _ [] k p M _ _ HM C N. destruct (asc_fin _ _ _ A N) as [q Q]. destruct p as [x v]. cbn in Q. injection Q as ->. cbn [fst].
    now rewrite (knot_previous s M k q v None GS C HM N).
  - intros q v w J VV. eapply value_unique; [exact A|exact VV|now apply val_knot].
Qed.

(** ** The invariant of the chain *)
Fixpoint TI (ks : chain xq) (l : list (xq * num)) : TS xq ks -> Prop :=
  match ks with
  | [] => fun _ => True
  | (k, _) :: ks' => oinv (TI ks' l) (imgs ks' l) (layer_G k)
  end.
Definition TU (ks : chain xq) (l : list (xq * num)) : TS xq ks -> nat -> Prop :=
  match ks with
  | [] => fun _ _ => True
  | (k, _) :: ks' => oupto (imgs ks' l) (layer_G k)
  end.
Fixpoint floor (ks : chain xq) : Qc :=
  match ks with
  | [] => 0%Qc
  | (_, own) :: ks' => match own with Some (Fin m) => if Qcltb (floor ks') m then m else floor ks' | _ => floor ks' end
  end.
Fixpoint back_ok (ks : chain xq) (l : list (xq * num)) : Prop :=
  match ks with [] => True | _ :: ks' => zero_ok (TI ks' l) (TU ks' l) (imgs ks' l) (back_ok ks' l) end.
Definition chain_interp (ip : interp) (ks : chain xq) : interp := match ks with [] => ip | _ => ILinear end.

Lemma nonzero_same (l l' : list (xq * num)) : map fst l = map fst l' -> nonzero l -> nonzero l'.
Proof.
  intros E H p J. apply (in_map fst) in J. rewrite <- E in J. apply in_map_iff in J as (p' & Ep & J). rewrite <- Ep. now apply H.
Qed.
Lemma nonzero_dots d : (forall j, (j < length d)%nat -> at_x d j <> 0%Qc) -> nonzero (dots d).
Proof.
  intros H [x v] J. apply dots_in in J as (k & L & -> & ->). cbn [fst]. intros [= E]. exact (H k L E).
Qed.

Lemma top_ms (s : pts xq num) ks d : chain_ok ks d ->
  top_step (c_ms (p_crv s)) ks = None \/ exists m0, top_step (c_ms (p_crv s)) ks = Some (Fin m0) /\ (0 < m0)%Qc /\ coarse m0 (dots d).
Proof. destruct ks as [|[k own] ks]; [now left|]. intros (_ & (m & -> & H & C) & _). right. now exists m. Qed.

Theorem tower_ready fuel s d ks : good s -> p_pts s = dots d -> equally_spaced (dots d) -> coarse min_step (dots d) ->
  chain_ok ks d -> (length d < fuel)%nat ->
  ready (tower fuel (p_crv s) ks) (TI ks (dots d)) (TU ks (dots d)) (value (chain_interp (p_interp s) ks) (imgs ks (dots d))) (imgs ks (dots d)) (floor ks) (back_ok ks (dots d)).
Proof.
  intros GS D ES CS CO Lf. assert (A : ascending (dots d)) by (rewrite <- D; apply GS).
  induction ks as [|[k own] ks IH].
  - cbn. rewrite <- D. now apply still_ready.
  - cbn [chain_ok] in CO. destruct CO as (SL & (m & -> & Hm & CM) & NZ & CO). specialize (IH CO).
    pose proof (imgs_dots ks d CO) as EI. pose proof (imgs_xs ks (dots d)) as XS.
    cbn [tower TI TU chain_interp imgs floor back_ok].
    unfold over, img. apply (over_ready (tower fuel (p_crv s) ks) (TI ks (dots d)) (TU ks (dots d)) (value (chain_interp (p_interp s) ks) (imgs ks (dots d))) (imgs ks (dots d)) (floor ks) (back_ok ks (dots d)) IH).
    + eapply ascending_xs; [symmetry; exact XS|exact A].
    + eapply equally_xs2; [symmetry; exact XS|exact ES].
    + exact Hm.
    + eapply coarse_same; [symmetry; exact XS|exact CM].
    + rewrite EI. rewrite EI in IH, XS. apply (layer_does _ _ _ _ _ _ _ IH); auto.
      * eapply ascending_xs; [symmetry; exact XS|exact A].
      * eapply coarse_same; [symmetry; exact XS|exact CM].
      * intros LB. destruct ks as [|k' [|k2 ks]]; [exact Logic.I| |].
        { right. split; [exact Logic.I|]. intros; exact Logic.I. }
        left. eapply nonzero_same; [symmetry; apply (imgs_xs (k2 :: ks))|]. apply nonzero_dots. apply NZ; [cbn; lia|exact LB].
      * eapply coarse_same; [symmetry; exact XS|exact CS].
      * destruct (top_ms s ks d CO) as [E|(m0 & E & H0 & C0)]; [left; exact E|right]. exists m0. split; [exact E|]. split; [exact H0|].
        eapply coarse_same; [symmetry; exact XS|exact C0].
    + apply post_none.
    + intros q v H. rewrite EI in H |- *. now apply (value_img k).
    + rewrite <- (map_length fst), XS, map_length, dots_len. exact Lf.
Qed.

(** ** Notifications *)
Lemma image_keeps G post D (l l' : list (xq * num)) : keeps D l l' -> keeps (update_interval D) (image G post l) (image G post l').
Proof.
  intros K k L B. rewrite <- (map_length fst), image_xs, map_length in L.
  unfold image. rewrite !firstn_map. f_equal. rewrite !spec_firstn. f_equal. apply K; [exact L|].
  intros p J. assert (J' : In (fst p) (map fst (firstn k (image G post l)))).
  { rewrite <- firstn_map, image_xs, firstn_map. now apply in_map. }
  apply in_map_iff in J' as (p' & E & J'). specialize (B p' J'). rewrite E in B. exact B.
Qed.
Lemma image_announces G post evs (l l' : list (xq * num)) : announces evs l l' ->
  announces (map (fun e : ev xq => match e with EvBegin D => EvBegin (update_interval D) | EvEnd D => EvEnd (update_interval D) end) evs)
    (image G post l) (image G post l').
Proof.
  intros [[-> ->]|(D & q & -> & KD & NE & S & K)]; [left; auto|]. right.
  destruct (update_ok D q S) as [KU NU]. exists (update_interval D), q. split; [reflexivity|]. split; [exact KU|]. split; [exact NU|]. split; [exact S|].
  now apply image_keeps.
Qed.

Theorem tower_events_ok ks l l' t evs : ascending l -> ascending l' -> TI ks l t -> announces evs l l' ->
  exists t' out, tower_events ks t evs = (t', out, Ok tt) /\ TI ks l' t' /\ announces out (imgs ks l) (imgs ks l').
Proof.
  intros A A' HI AN. revert t HI. induction ks as [|[k own] ks IH]; intros t HI; cbn [tower_events].
  { exists t, evs. split; [reflexivity|]. split; [exact Logic.I|exact AN]. }
  destruct t as [t a]. destruct HI as [HT HA]. cbn [fst snd] in *. destruct (IH t HT) as (t' & out & E & HT' & AN').
  rewrite E. destruct (vevents_ok (layer_G k) ILinear (imgs ks l) (imgs ks l') a out) as (a' & E' & HA').
  - eapply ascending_xs; [symmetry; apply imgs_xs|exact A].
  - eapply ascending_xs; [symmetry; apply imgs_xs|exact A'].
  - exact HA.
  - exact AN'.
  - rewrite E'. eexists _, _. split; [reflexivity|]. split; [split; [exact HT'|exact HA']|]. now apply image_announces.
Qed.

(** ** Histories *)
(** [s] holds the points [d], equally spaced, at least every minimum step apart *)
Definition spread (ks : chain xq) (s : pts xq num) (d : list (Qc * Qc)) : Prop :=
  p_pts s = dots d /\ equally_spaced (dots d) /\ coarse min_step (dots d) /\ chain_ok ks d.

(** a question to any curve of the chain: y or x_next or x_previous anywhere,
    or the domain *)
Inductive asks (fuel : nat) (s : pts xq num) : forall ks, TS xq ks -> TS xq ks -> Prop :=
| ak_y ks t x t' r : sc_y (tower fuel (p_crv s) ks) x t = (t', r) -> asks fuel s ks t t'
| ak_dom ks t t' r : sc_dom (tower fuel (p_crv s) ks) t = (t', r) -> asks fuel s ks t t'
| ak_next ks t x ms lim t' r : sc_next (tower fuel (p_crv s) ks) x ms lim t = (t', r) -> asks fuel s ks t t'
| ak_prev ks t x ms lim t' r : sc_prev (tower fuel (p_crv s) ks) x ms lim t = (t', r) -> asks fuel s ks t t'
| ak_below k own ks t t' a : asks fuel s ks t t' -> asks fuel s ((k, own) :: ks) (t, a) (t', a).

(** A chain built on a Points object, each curve created over the one below at
    any time; questions to any of its curves; operations on the Points object
    with their notifications. *)
Inductive chained : forall ks, pts xq num -> TS xq ks -> Prop :=
| ch_base s : honest_history s -> chained [] s tt
| ch_new k own ks s t : chained ks s t -> chained ((k, own) :: ks) s (t, acc_init ILinear true)
| ch_ask fuel ks s d t t' : chained ks s t -> spread ks s d -> (length d < fuel)%nat -> asks fuel s ks t t' -> chained ks s t'
| ch_read ks s t : chained ks s t -> chained ks (p_touch s) t
| ch_op ks s t o s' evs t' out r : chained ks s t -> op_ok o -> run_op s o = (s', evs, Ok tt) ->
    (p_uniform s' = true -> equally_spaced (p_pts s')) -> tower_events ks t evs = (t', out, r) -> chained ks s' t'
| ch_refused ks s t o s' e : chained ks s t -> op_ok o -> run_op s o = (s', [], Err e) -> chained ks s' t.

(** the steps do not change anything *)
Lemma tower_next_same fuel (c : crv xq num) ks x ms lim t : fst (sc_next (tower fuel c ks) x ms lim t) = t.
Proof.
  revert x ms lim t. induction ks as [|[k own] ks IH]; intros x ms lim t; [reflexivity|].
  cbn [tower over sc_next]. unfold st_next, st_step, sbind, get_acc, of_src, sret, sfail. destruct t as [t a]. cbn [fst snd].
  assert (X : fst (let '(t0, r) := sc_next (tower fuel c ks) x (resolve_min_step own ms) lim t in (t0, a, r)) = (t, a)).
  { pose proof (IH x (resolve_min_step own ms) lim t) as E. destruct (sc_next _ _ _ _ _) as [t0 r]. cbn in *. now subst. }
  destruct (p_x_next _ _ _ _) as [[v|]|e]; [destruct (n_eqb v n_zero); [exact X|reflexivity]|exact X|reflexivity].
Qed.
Lemma tower_prev_same fuel (c : crv xq num) ks x ms lim t : fst (sc_prev (tower fuel c ks) x ms lim t) = t.
Proof.
  revert x ms lim t. induction ks as [|[k own] ks IH]; intros x ms lim t; [reflexivity|].
  cbn [tower over sc_prev]. unfold st_prev, st_step, sbind, get_acc, of_src, sret, sfail. destruct t as [t a]. cbn [fst snd].
  assert (X : fst (let '(t0, r) := sc_prev (tower fuel c ks) x (resolve_min_step own ms) lim t in (t0, a, r)) = (t, a)).
  { pose proof (IH x (resolve_min_step own ms) lim t) as E. destruct (sc_prev _ _ _ _ _) as [t0 r]. cbn in *. now subst. }
  destruct (p_x_previous _ _ _ _) as [[v|]|e]; [destruct (n_eqb v n_zero); [exact X|reflexivity]|exact X|reflexivity].
Qed.

Lemma spread_below k own ks s d : spread ((k, own) :: ks) s d -> spread ks s d.
Proof. intros (D & ES & CS & (_ & _ & _ & CO)). repeat split; auto. Qed.

Lemma asks_inv fuel s d ks t t' : good s -> asks fuel s ks t t' -> spread ks s d -> (length d < fuel)%nat -> TI ks (dots d) t -> TI ks (dots d) t'.
Proof.
  intros GS AK. induction AK as [ks t x t' r E|ks t t' r E|ks t x ms lim t' r E|ks t x ms lim t' r E|k own ks t t' a AK IH]; intros SP Lf HI.
  - destruct SP as (D & ES & CS & CO). pose proof (tower_ready fuel s d ks GS D ES CS CO Lf) as RD.
    pose proof (proj1 (rd_any _ _ _ _ _ _ _ RD t x HI)) as X. rewrite E in X. exact X.
  - destruct SP as (D & ES & CS & CO). pose proof (tower_ready fuel s d ks GS D ES CS CO Lf) as RD.
    destruct (rd_dom _ _ _ _ _ _ _ RD t HI) as (t1 & E1 & G1). rewrite E in E1. injection E1 as -> _. apply G1.
  - pose proof (tower_next_same fuel (p_crv s) ks x ms lim t) as X. rewrite E in X. cbn in X. now subst.
  - pose proof (tower_prev_same fuel (p_crv s) ks x ms lim t) as X. rewrite E in X. cbn in X. now subst.
  - destruct HI as [HT HA]. split; [|exact HA]. cbn [fst] in *. apply IH; auto. eapply spread_below; eauto.
Qed.

Theorem chained_inv ks s t : chained ks s t -> good s /\ TI ks (p_pts s) t.
Proof.
  induction 1 as [s H|k own ks s t _ [GS HI]|fuel ks s d t t' _ [GS HI] SP L AK|ks s t _ [GS HI]|ks s t o s' evs t' out r _ [GS HI] O R T E|ks s t o s' e _ [GS HI] O R].
  - split; [now apply honest_history_good|exact Logic.I].
  - split; [exact GS|]. split; [exact HI|]. cbn [snd]. destruct (acc_init_eq (W := num) ILinear) as (_ & E2 & E3 & E4 & E5).
    split; [split; [split; reflexivity|now left]|]. exists 0%nat. apply state0; auto.
  - split; [exact GS|]. destruct SP as (D & SP'). rewrite D in *. eapply asks_inv; eauto. split; [exact D|exact SP'].
  - split; [now apply good_touch|exact HI].
  - assert (GS' : good s') by (apply good_calm; split; [eapply step_calm; eauto|exact T]).
    split; [exact GS'|]. destruct (tower_events_ok ks (p_pts s) (p_pts s') t evs (proj1 GS) (proj1 GS') HI (op_announces s o s' evs GS O R)) as (t1 & out1 & E1 & I1 & _).
    rewrite E in E1. now injection E1 as -> _ _.
  - destruct (refused_same s o s' e GS O R) as [->| ->]; [auto|]. split; [now apply good_touch|exact HI].
Qed.

(** ** The values *)
Theorem chained_traces fuel ks s t d : ks <> [] -> chained ks s t -> spread ks s d -> (length d < fuel)%nat ->
  traces ILinear (chain_out ks d) (fun x => snd (sc_y (tower fuel (p_crv s) ks) x t)).
Proof.
  intros NE H (D & ES & CS & CO) Lf. destruct (chained_inv ks s t H) as [GS HI]. rewrite D in HI.
  pose proof (tower_ready fuel s d ks GS D ES CS CO Lf) as RD. rewrite (imgs_dots ks d CO) in RD.
  assert (EI : chain_interp (p_interp s) ks = ILinear) by (destruct ks; [congruence|reflexivity]). rewrite EI in RD.
  set (r := chain_out ks d) in *.
  assert (A : ascending (dots r)).
  { unfold r. rewrite <- (imgs_dots ks d CO). eapply ascending_xs; [symmetry; apply imgs_xs|]. rewrite <- D. apply GS. }
  assert (ET : table r (fun k => at_y r k + 0)%Qc = r).
  { symmetry. rewrite (table_of r r) at 1; auto.
    - apply table_ext. intros k L. ring.
    - intros k L. pose proof (dots_at r k L) as X. unfold dots in X. rewrite nth_error_map in X. destruct (nth_error r k) as [[x y]|]; [|discriminate].
      cbn in X. unfold dot in X. cbn in X. congruence. }
  rewrite <- ET. apply traces_of with (post := fun y => y); auto.
  - intros y. do 2 f_equal. ring.
  - intros q. destruct (rd_y _ _ _ _ _ _ _ RD t q HI) as (t' & v & E & VV & _). exists v. rewrite E. auto.
Qed.

Theorem chained_domain fuel ks s t d : chained ks s t -> spread ks s d -> (length d < fuel)%nat ->
  snd (sc_dom (tower fuel (p_crv s) ks) t) = Ok (pts_domain (dots d)).
Proof.
  intros H (D & ES & CS & CO) Lf. destruct (chained_inv ks s t H) as [GS HI]. rewrite D in HI.
  destruct (rd_dom _ _ _ _ _ _ _ (tower_ready fuel s d ks GS D ES CS CO Lf) t HI) as (t' & E & _). rewrite E. cbn [snd]. f_equal.
  pose proof (imgs_xs ks (dots d)) as X. unfold pts_domain.
  assert (H1 : option_map fst (head_opt (imgs ks (dots d))) = option_map fst (head_opt (dots d))) by (destruct (imgs ks (dots d)), (dots d); cbn in *; congruence).
  assert (H2 : option_map fst (last_opt (imgs ks (dots d))) = option_map fst (last_opt (dots d))) by now apply last_xs.
  destruct (head_opt (imgs ks (dots d))), (head_opt (dots d)), (last_opt (imgs ks (dots d))), (last_opt (dots d)); cbn in *; congruence.
Qed.
