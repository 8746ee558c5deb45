(** The accumulating curves of Scan.v over a Points object in binary64, on a
    whole-number grid. *)
From Coq Require Import List ZArith Reals Lia Lra Bool SpecFloat.
From Flocq Require Import Core BinarySingleNaN.
From Verif Require Import Base Num Interval Curve Points Combine Scan B64Facts GridFacts StepB64 IrregB64 ErrB64 InterpB64.
Import ListNotations.
Open Scope Z_scope.

Lemma max_self (m : b64) : n_max m m = m. Proof. unfold n_max. destruct (_ : bool); reflexivity. Qed.
Lemma firstn_snoc {A} (l : list A) k w : nth_error l k = Some w -> firstn (S k) l = firstn k l ++ [w].
Proof. revert k. induction l as [|b l IH]; intros [|k] E; cbn in E; try discriminate; [injection E as ->; reflexivity|]. cbn [firstn app]. f_equal. apply IH, E. Qed.
Lemma nth_firstn_lt {A} (l : list A) i k : (i < k)%nat -> nth_error (firstn k l) i = nth_error l i.
Proof. revert i k. induction l as [|b l IH]; intros i [|k] L; try lia; [destruct i; reflexivity|]. destruct i; [reflexivity|]. cbn. apply IH. lia. Qed.

Section Acc.
Context {V W : Type} {VV : Val b64 V} {VW : Val b64 W}.
Variables (a h : Z) (m : b64) (ip : interp).
Notation X i := (fnum (at_i a h i) 0).

Section OneSource.
Variables (vs : list V) (src : pts b64 V) (tf : pts b64 W -> b64 -> V -> W -> res W) (ws : list W).
Hypothesis SM : grid_small a h (length vs).
Hypothesis NE : (0 < length vs)%nat.
Hypothesis ST : step_ok h m.
Hypothesis ON : on_grid a h 0 vs src.
Hypothesis LW : length ws = length vs.
(** what comes before point [k] *)
Definition before (k : nat) : W := match k with O => v_none | S j => nth j ws v_none end.
Hypothesis TF : forall k v w p, nth_error vs k = Some v -> nth_error ws k = Some w -> on_grid a h 0 (firstn k ws) p -> tf p (X k) v (before k) = Ok w.

Record at_k (k : nat) (q : acc b64 W) : Prop := {
  ak_le : (k <= length vs)%nat;
  ak_pts : on_grid a h 0 (firstn k ws) (a_pts q);
  ak_ip : p_interp (a_pts q) = ip;
  ak_cur : a_cur q = match k with O => None | S j => Some (X j) end;
  ak_start : a_start q = match k with O => None | S _ => Some (X 0) end;
  ak_upd : exists o, a_upd q = mkU i_empty i_empty o /\ (o = None \/ o = Some (p_dom src)) }.

Lemma SMk k : (k <= length vs)%nat -> grid_small a h k.
Proof. destruct SM as (P & A & B & C). intros L. unfold grid_small. repeat split; try assumption; nia. Qed.
Lemma xr i : (i < length vs)%nat -> exists b : bf, X i = B2SF b /\ is_finite b = true /\ B2R b = IZR (at_i a h i) /\ Z.abs (at_i a h i) <= 2 ^ 35.
Proof.
  intros L. exists (bnum (at_i a h i) 0). rewrite fnum_bnum. destruct (bnum_spec (at_i a h i) 0 (fits_at a h 0 _ i (small_fits a h _ SM) L)) as (R1 & F1 & _).
  split; [reflexivity|]. split; [exact F1|]. rewrite R1, dy0. split; [reflexivity|]. unfold at_i. destruct SM as (P & A & B & C). nia.
Qed.
Lemma len_k k : (k <= length vs)%nat -> length (firstn k ws) = k.
Proof. intros L. apply firstn_length_le. lia. Qed.
Lemma ltX i j : (i < length vs)%nat -> (j < length vs)%nat -> n_ltb (X i) (X j) = Nat.ltb i j.
Proof.
  intros I J. pose proof (small_fits a h _ SM) as G. change (@n_ltb b64 B64) with SFltb. rewrite fnum_ltb by (eapply fits_at; eassumption). destruct SM as (P & _).
  destruct (Nat.ltb_spec i j), (Z.ltb_spec (at_i a h i) (at_i a h j)); try reflexivity; unfold at_i in *; nia.
Qed.
Lemma leX i j : (i < length vs)%nat -> (j < length vs)%nat -> n_leb (X i) (X j) = Nat.leb i j.
Proof.
  intros I J. pose proof (small_fits a h _ SM) as G. change (@n_leb b64 B64) with SFleb. rewrite fnum_leb by (eapply fits_at; eassumption). destruct SM as (P & _).
  destruct (Nat.leb_spec i j), (Z.leb_spec (at_i a h i) (at_i a h j)); try reflexivity; unfold at_i in *; nia.
Qed.
Lemma dom_k {U} {VU : Val b64 U} k (l : list U) p : length l = S k -> (k < length vs)%nat -> on_grid a h 0 l p ->
  p_dom p = mkI (X 0) (X k) false false /\ i_is_empty (p_dom p) = false.
Proof.
  intros L K (_ & _ & _ & dom & _ & D). rewrite D, L. cbn [grid_dom]. rewrite (fnum_at0 a h 0). split; [reflexivity|].
  pose proof (small_fits a h _ SM) as G. apply (sound_point (at_i a h 0) 0 false false (at_i a h k)); [eapply fits_at; [exact G|lia]|eapply fits_at; [exact G|lia]|].
  destruct SM as (P & _). destruct k; [right; auto|left; unfold at_i; nia].
Qed.
(** no next point after the last of those reached so far *)
Lemma no_next {U} {VU : Val b64 U} k (l : list U) p lim : length l = S k -> (S k < length vs)%nat -> on_grid a h 0 l p -> p_x_next p (X k) (Some m) lim = Ok None.
Proof.
  intros L K O. destruct k as [|k].
  - destruct (dom_k 0 l p L ltac:(lia) O) as [D E]. unfold p_x_next. rewrite E. cbn [resolve_min_step].
    assert (i_contains_gen false true (p_dom p) (n_add (X 0) m) = false) as ->; [|reflexivity].
    destruct SM as (P & A & B & C).
    destruct (step_real h m ltac:(nia) ST) as (mb & -> & FM & RM). destruct (xr 0 ltac:(lia)) as (xb & EX & FX & RX & AX). rewrite EX in *.
    assert (MU : (0 < bpow radix2 (-17))%R) by apply bpow_gt_0.
    assert (AXR : (Rabs (IZR (at_i a h 0)) <= IZR (2 ^ 35))%R) by (rewrite <- abs_IZR; apply IZR_le; exact AX). apply Rabs_le_inv in AXR.
    assert (HH : (IZR h <= IZR (2 ^ 35))%R) by (apply IZR_le; nia). assert (P36 : (IZR (2 ^ 35) + IZR (2 ^ 35) <= IZR (2 ^ 36))%R) by (rewrite <- plus_IZR; apply IZR_le; lia).
    change (@n_add b64 B64) with (SFadd 53 1024). destruct (add_val xb mb FX FM) as (y & EY & FY & RY).
    { apply abs_le_100 with (2 ^ 36); [|lia]. rewrite RX. apply Rabs_le. lra. }
    rewrite EY. assert (YB : (IZR (at_i a h 0) + bpow radix2 (-17) <= B2R y)%R).
    { rewrite RY, RX. apply round_ge_generic; [apply Hexp|apply valid_rnd_N| |].
      - replace (bpow radix2 (-17)) with (IZR 1 * bpow radix2 (-17))%R by ring. apply format_near; auto.
      - lra. }
    unfold i_contains_gen. rewrite E. rewrite D. unfold below_end. cbn [i_end i_eo negb andb orb]. change (@n_ltb b64 B64) with SFltb. change (@n_eqb b64 B64) with SFeqb.
    rewrite ltb_val, eqb_val by assumption. rewrite Rlt_bool_false, Req_bool_false by lra. reflexivity.
  - rewrite <- L in *. rewrite (next_knot a h l p) with (i := S k); [|apply SMk; lia|lia|exact O|lia|exact ST]. destruct (Nat.ltb_spec (S (S k)) (length l)); [lia|reflexivity].
Qed.
Lemma next_src k lim : (S k < length vs)%nat -> p_x_next src (X k) (Some m) lim = Ok (Some (X (S k))).
Proof. intros K. rewrite (next_knot a h vs src SM ltac:(lia) ON) by (try exact ST; lia). destruct (Nat.ltb_spec (S k) (length vs)); [reflexivity|lia]. Qed.
Lemma next_acc k q lim : (S k < length vs)%nat -> at_k (S k) q -> acc_next (p_crv src) (Some m) q (X k) (Some m) lim = Ok (Some (X (S k))).
Proof.
  intros K Q. unfold acc_next. cbn [resolve_min_step]. rewrite max_self. rewrite (no_next k (firstn (S k) ws)) by (try apply len_k; try apply Q; lia).
  cbn [rbind py_or p_crv c_next]. apply next_src, K.
Qed.
Lemma y_src k v : nth_error vs k = Some v -> p_y src (X k) = Ok v.
Proof. intros E. apply (grid_y a h 0 vs src k v (small_fits a h _ SM) ON E). Qed.
Lemma in_src k : (k < length vs)%nat -> i_contains (p_dom src) (X k) = true.
Proof. intros K. apply (in_dom a h 0 _ k vs src (small_fits a h _ SM) eq_refl K ON). Qed.

Lemma step_acc k v q : at_k k q -> nth_error vs k = Some v ->
  exists q', accumulate tf q (X k) v = (q', Ok tt) /\ a_start q' = a_start q /\ a_upd q' = a_upd q /\ a_cur q' = a_cur q /\
  on_grid a h 0 (firstn (S k) ws) (a_pts q') /\ p_interp (a_pts q') = ip.
Proof.
  intros Q E. assert (K : (k < length vs)%nat) by (apply nth_error_Some; congruence). pose proof (small_fits a h _ SM) as G.
  destruct (nth_error ws k) as [w|] eqn:EW; [|apply nth_error_None in EW; lia].
  pose proof (ak_pts _ _ Q) as OP. pose proof (touch_grid a h 0 _ _ OP) as [TU TD].
  assert (OT : on_grid a h 0 (firstn k ws) (p_touch (a_pts q))).
  { destruct OP as (P1 & P2 & P3 & _). repeat split; try assumption. exists (Some (grid_dom a h 0 (length (firstn k ws)))). auto. }
  unfold accumulate. set (p := p_touch (a_pts q)) in *.
  assert (LY : (if i_is_empty (p_dom p) then Ok v_none else if negb (n_ltb (i_end (p_dom p)) (X k)) then Err EAssert else p_y p (i_end (p_dom p))) = Ok (before k)).
  { destruct k as [|k].
    - rewrite TD. cbn [firstn length grid_dom]. replace (i_is_empty (@i_empty b64 B64)) with true by (vm_compute; reflexivity). reflexivity.
    - destruct (dom_k k _ p (len_k (S k) ltac:(lia)) ltac:(lia) OT) as [D DE]. rewrite DE, D. cbn [i_end]. rewrite ltX by lia. replace (Nat.ltb k (S k)) with true by (symmetry; apply Nat.ltb_lt; lia). cbn [negb before].
      apply (grid_y a h 0 (firstn (S k) ws)); [rewrite len_k by lia; apply (fits_shorter a h 0 _ (S k) G); lia|exact OT|].
      rewrite nth_firstn_lt by lia. apply nth_error_nth'. lia. }
  rewrite LY, (TF k v w p E EW OT).
  pose proof (append_grid a h 0 (firstn k ws) [w] p OT) as AG. rewrite app_length, len_k in AG by lia.
  destruct AG as (A1 & A2 & A3); [apply (fits_shorter a h 0 _ _ G); cbn; lia|].
  rewrite <- firstn_snoc in A2 by exact EW. change (grid (at_i a h k) h 0 [w]) with [(X k, w)] in A1, A2, A3.
  unfold p_append. destruct (p_append_list p [(X k, w)]) as [[p' ev] r]. cbn [fst snd] in A1, A2, A3. subst r.
  eexists. split; [reflexivity|]. repeat split; try assumption; try apply A2. cbn [set_apts a_pts]. rewrite A3. apply Q.
Qed.

Lemma start_dom (q : acc b64 W) : (exists o, a_upd q = mkU i_empty i_empty o /\ (o = None \/ o = Some (p_dom src))) ->
  exists q', acc_dom (p_dom src) q = (q', p_dom src) /\ a_pts q' = a_pts q /\ a_cur q' = a_cur q /\ a_start q' = a_start q /\
  exists o, a_upd q' = mkU i_empty i_empty o /\ (o = None \/ o = Some (p_dom src)).
Proof.
  intros (o & U & [-> | ->]); unfold acc_dom; rewrite U; cbn [u_dom u_begin u_end]; eexists; (split; [reflexivity|]); (repeat split); exists (Some (p_dom src)); (split; [try reflexivity; exact U|right; reflexivity]).
Qed.
Definition reached (x : b64) (q : acc b64 W) : Prop := match a_cur q with None => False | Some cur => n_ltb cur x = false end.
Lemma run_loop (x : bf) : is_finite x = true -> (B2R x <= IZR (at_i a h (length vs - 1)))%R ->
  forall fuel k q, at_k k q -> (length vs - k < fuel)%nat ->
  exists k' q', scan_loop fuel (p_crv src) (Some m) (init_scan (p_crv src) (Some m)) tf (B2SF x) (Some (B2SF x)) q = (q', Ok tt) /\
  at_k k' q' /\ (k <= k')%nat /\ reached (B2SF x) q'.
Proof.
  intros FX UX. induction fuel as [|f IH]; intros k q Q L; [lia|]. cbn [scan_loop]. rewrite (ak_cur _ _ Q).
  destruct k as [|k].
  - destruct (dom_k (length vs - 1) vs src ltac:(lia) ltac:(lia) ON) as [D DE].
    destruct (nth_error vs 0) as [v|] eqn:E; [|apply nth_error_None in E; lia].
    destruct (start_dom q (ak_upd _ _ Q)) as (q1 & AD & P1 & P2 & P3 & P4).
    assert (NI : i_is_negative_infinite (p_dom src) = false).
    { rewrite D. destruct (xr 0 NE) as (xb & EX & FB & _). unfold i_is_negative_infinite. cbn [i_start]. rewrite EX. destruct xb; try discriminate FB; reflexivity. }
    assert (INI : init_scan (p_crv src) (Some m) q (Some (B2SF x)) = (q1, Ok (Some (X 0)))).
    { unfold init_scan. cbn [p_crv c_dom c_next]. rewrite DE, NI. cbn [orb]. rewrite AD.
      assert (i_start (p_dom src) = X 0) as -> by (rewrite D; reflexivity). rewrite in_src by assumption. reflexivity. }
    rewrite INI. change (c_dom (p_crv src)) with (p_dom src). change (c_y (p_crv src)) with (p_y src). rewrite in_src by assumption. cbn [negb].
    assert (a_cur (set_start q1 (Some (X 0))) = None) as -> by (cbn; rewrite P2; apply (ak_cur _ _ Q)). rewrite (y_src 0 v E).
    assert (Q1 : at_k 0 (set_start q1 None)) by (constructor; cbn [set_start a_pts a_cur a_start a_upd]; rewrite ?P1, ?P2; try apply Q; auto).
    destruct (step_acc 0 v _ Q1 E) as (q2 & A1 & A2 & A3 & A4 & A5 & A6).
    assert (accumulate tf (set_start q1 (Some (X 0))) (X 0) v = (set_start q2 (Some (X 0)), Ok tt)) as ->.
    { revert A1. unfold accumulate. cbn [set_start set_apts a_pts a_start a_cur a_upd]. destruct (_ : res W); [|discriminate]. destruct (tf _ _ _ _); [|discriminate].
      destruct (p_append _ _) as [[p' ev] r]. intros [= <- ->]. reflexivity. }
    destruct (IH 1%nat (set_cur (set_start q2 (Some (X 0))) (Some (X 0)))) as (k' & q' & R & Q' & Lk & RE); [|lia|].
    { constructor; cbn [set_cur set_start a_pts a_cur a_start a_upd]; try assumption; try reflexivity. rewrite A3. exact P4. }
    exists k', q'. split; [exact R|]. split; [exact Q'|]. split; [lia|exact RE].
  - destruct (n_ltb (X k) (B2SF x)) eqn:LT.
    + assert (K : (S k < length vs)%nat).
      { pose proof (ak_le _ _ Q). destruct (Nat.eq_dec (S k) (length vs)) as [EQ|]; [exfalso|lia]. destruct (xr k ltac:(lia)) as (xb & EX & FB & RB & _). rewrite EX in LT.
        change (@n_ltb b64 B64) with SFltb in LT. rewrite ltb_val in LT by assumption. destruct (Rlt_bool_spec (B2R xb) (B2R x)) as [LR|]; [|discriminate]. replace (length vs - 1)%nat with k in UX by lia. lra. }
      rewrite next_acc by assumption. change (c_dom (p_crv src)) with (p_dom src). change (c_y (p_crv src)) with (p_y src). rewrite in_src by lia. cbn [negb]. rewrite (ak_cur _ _ Q). rewrite leX by lia.
      replace (Nat.leb (S k) k) with false by (symmetry; apply Nat.leb_gt; lia).
      destruct (nth_error vs (S k)) as [v|] eqn:E; [|apply nth_error_None in E; lia]. rewrite (y_src _ v E).
      destruct (step_acc (S k) v q Q E) as (q2 & -> & A2 & A3 & A4 & A5 & A6).
      destruct (IH (S (S k)) (set_cur q2 (Some (X (S k))))) as (k' & q' & R & Q' & Lk & RE); [|lia|].
      { constructor; cbn [set_cur a_pts a_cur a_start a_upd]; try assumption; try reflexivity; [rewrite A2; apply (ak_start _ _ Q)|]. rewrite A3. apply (ak_upd _ _ Q). }
      exists k', q'. split; [exact R|]. split; [exact Q'|]. split; [lia|exact RE].
    + exists (S k), q. split; [reflexivity|]. split; [exact Q|]. split; [lia|]. unfold reached. rewrite (ak_cur _ _ Q). exact LT.
Qed.

(** one query *)
Lemma inside_real (x : bf) : i_contains (p_dom src) (B2SF x) = true -> is_finite x = true /\ (IZR (at_i a h 0) <= B2R x <= IZR (at_i a h (length vs - 1)))%R.
Proof.
  destruct (dom_k (length vs - 1) vs src ltac:(lia) ltac:(lia) ON) as [D DE]. unfold i_contains, i_contains_gen. rewrite DE, D.
  destruct (xr 0 NE) as (lb & EL & FL & RL & _). destruct (xr (length vs - 1) ltac:(lia)) as (ub & EU & FU & RU & _). rewrite EL, EU.
  unfold above_start, below_end. cbn [i_start i_end i_so i_eo negb orb andb]. unfold n_gtb. change (@n_ltb b64 B64) with SFltb. change (@n_eqb b64 B64) with SFeqb.
  destruct (is_finite x) eqn:FX.
  - rewrite !ltb_val, !eqb_val by assumption. rewrite <- RL, <- RU. intros H. split; [reflexivity|].
    destruct (Rlt_bool_spec (B2R lb) (B2R x)), (Req_bool_spec (B2R lb) (B2R x)), (Req_bool_spec (B2R x) (B2R lb)), (Rlt_bool_spec (B2R x) (B2R ub)), (Req_bool_spec (B2R x) (B2R ub)), (Req_bool_spec (B2R ub) (B2R x)); cbn in H; try discriminate H; lra.
  - intros H. exfalso. destruct x as [|s| |]; try discriminate FX; destruct lb, ub; try discriminate FL; try discriminate FU; destruct s; cbn in H; discriminate H.
Qed.
Lemma query (post : W -> W) fuel k q (x : bf) : at_k k q -> (length vs < fuel)%nat ->
  exists k' q', at_k k' q' /\ (k <= k')%nat /\
  ((i_contains (p_dom src) (B2SF x) = false /\ acc_y fuel (p_crv src) (Some m) tf post q (B2SF x) = (q', Ok v_none)) \/
   (i_contains (p_dom src) (B2SF x) = true /\ reached (B2SF x) q' /\ acc_y fuel (p_crv src) (Some m) tf post q (B2SF x) = (q', let! y := p_y (a_pts q') (B2SF x) in Ok (post y)))).
Proof.
  intros Q L. unfold acc_y. change (c_dom (p_crv src)) with (p_dom src). destruct (i_contains (p_dom src) (B2SF x)) eqn:C; cbn [negb].
  - destruct (inside_real x C) as (FX & LX & UX). unfold scan, no_offset. rewrite (ak_start _ _ Q).
    assert (Z : @n_ltb b64 B64 (B2SF x) (X 0) = false).
    { destruct (xr 0 NE) as (lb & -> & FL & RL & _). change (@n_ltb b64 B64) with SFltb. rewrite ltb_val by assumption. apply Rlt_bool_false. lra. }
    destruct (run_loop x FX UX fuel k q Q ltac:(lia)) as (k' & q' & R & Q' & Lk & RE). exists k', q'. split; [exact Q'|]. split; [exact Lk|]. right. split; [reflexivity|]. split; [exact RE|].
    destruct k as [|k]; cbv beta iota; [|rewrite Z]; (match goal with |- context [scan_loop ?a1 ?a2 ?a3 ?a4 ?a5 ?a6 ?a7 ?a8] => replace (scan_loop a1 a2 a3 a4 a5 a6 a7 a8) with (q', @Ok unit tt) by (symmetry; exact R) end); reflexivity.
  - destruct (start_dom q (ak_upd _ _ Q)) as (q1 & AD & P1 & P2 & P3 & P4). rewrite AD, C. cbn [negb]. exists k, q1. split; [|split; [lia|]].
    + constructor; rewrite ?P1, ?P2, ?P3; try apply Q. exact P4.
    + left. split; reflexivity.
Qed.
(** the point of a query is among those reached *)
Lemma reached_index k q i (x : bf) : at_k k q -> reached (B2SF x) q -> is_finite x = true -> (i < length vs)%nat -> (IZR (at_i a h i) <= B2R x)%R -> (i < k)%nat.
Proof.
  intros Q R FX I LX. unfold reached in R. rewrite (ak_cur _ _ Q) in R. destruct k as [|k]; [destruct R|]. pose proof (ak_le _ _ Q). destruct (xr k ltac:(lia)) as (kb & EK & FK & RK & _). rewrite EK in R.
  change (@n_ltb b64 B64) with SFltb in R. rewrite ltb_val in R by assumption. destruct (Rlt_bool_spec (B2R kb) (B2R x)) as [?|G]; [discriminate|]. rewrite RK in G.
  assert (at_i a h i <= at_i a h k) by (apply le_IZR; lra). unfold at_i in *. destruct SM as (P & _). nia.
Qed.
Lemma reached_between k q i (x : bf) : at_k k q -> reached (B2SF x) q -> is_finite x = true -> (i < length vs)%nat -> (IZR (at_i a h i) < B2R x)%R -> (S i < k)%nat.
Proof.
  intros Q R FX I LX. unfold reached in R. rewrite (ak_cur _ _ Q) in R. destruct k as [|k]; [destruct R|]. pose proof (ak_le _ _ Q). destruct (xr k ltac:(lia)) as (kb & EK & FK & RK & _). rewrite EK in R.
  change (@n_ltb b64 B64) with SFltb in R. rewrite ltb_val in R by assumption. destruct (Rlt_bool_spec (B2R kb) (B2R x)) as [?|G]; [discriminate|]. rewrite RK in G.
  assert (at_i a h i < at_i a h k) by (apply lt_IZR; lra). unfold at_i in *. destruct SM as (P & _). nia.
Qed.
(** at a point: what the transform gave *)
Lemma query_knot (post : W -> W) fuel k q i w : at_k k q -> (length vs < fuel)%nat -> nth_error ws i = Some w ->
  snd (acc_y fuel (p_crv src) (Some m) tf post q (X i)) = Ok (post w).
Proof.
  intros Q L E. assert (I : (i < length vs)%nat) by (rewrite <- LW; apply nth_error_Some; congruence). destruct (xr i I) as (xb & EX & FX & RX & _).
  pose proof (in_src i I) as C. rewrite EX in *. destruct (query post fuel k q xb Q L) as (k' & q' & Q' & _ & [[C' _]|(_ & RE & ->)]); [congruence|]. cbn [snd].
  pose proof (reached_index k' q' i xb Q' RE FX I ltac:(lra)) as Lk. pose proof (ak_le _ _ Q') as LE. rewrite <- EX.
  rewrite (grid_y a h 0 (firstn k' ws) (a_pts q') i w); [reflexivity| |apply Q'|rewrite nth_firstn_lt by exact Lk; exact E].
  rewrite len_k by exact LE. apply (fits_shorter a h 0 _ _ (small_fits a h _ SM)). exact LE.
Qed.
End OneSource.

(** ** Histories of queries and appends *)
Section History.
Variables (tfs : pts b64 V -> pts b64 W -> b64 -> V -> W -> res W) (post : W -> W) (outs : list V -> list W) (ok : list V -> Prop).
Hypothesis OL : forall vs, length (outs vs) = length vs.
Hypothesis OP : forall vs us k, (k <= length vs)%nat -> firstn k (outs (vs ++ us)) = firstn k (outs vs).
Hypothesis OT : forall vs src, ok vs -> grid_small a h (length vs) -> on_grid a h 0 vs src ->
  forall k v w p, nth_error vs k = Some v -> nth_error (outs vs) k = Some w -> on_grid a h 0 (firstn k (outs vs)) p ->
  tfs src p (X k) v (before (outs vs) k) = Ok w.
Definition y64 (fuel : nat) (src : pts b64 V) (q : acc b64 W) (x : b64) : acc b64 W * res W := acc_y fuel (p_crv src) (Some m) (tfs src) post q x.
Inductive watch64 : list V -> pts b64 V -> acc b64 W -> Prop :=
| w64_new vs src u : grid_run a h 0 vs src -> vs <> [] -> watch64 vs src (acc_init ip u)
| w64_query vs src q fuel x : watch64 vs src q -> valid_binary 53 1024 x = true -> (length vs < fuel)%nat -> watch64 vs src (fst (y64 fuel src q x))
| w64_append vs us src q : watch64 vs src q -> us <> [] ->
    watch64 (vs ++ us) (fst (fst (p_append_list src (grid (a + Z.of_nat (length vs) * h) h 0 us))))
      (fst (fst (acc_events q (snd (fst (p_append_list src (grid (a + Z.of_nat (length vs) * h) h 0 us))))))).
Hypothesis OKP : forall vs us, ok (vs ++ us) -> ok vs.
Hypothesis ST : step_ok h m.

Lemma beyond n j : grid_small a h n -> (j < n)%nat ->
  i_intersects (mkI (X 0) (X j) false false) (mkI (X (n - 1)) n_inf true true) = false /\ sound_ival (mkI (X (n - 1)) n_inf true true).
Proof.
  intros SM J. pose proof (small_fits a h _ SM) as G. assert (FF : forall i, (i < n)%nat -> fits (at_i a h i) 0) by (intros i I; eapply fits_at; [exact G|exact I]).
  assert (IR : forall i, (i < n)%nat -> SFltb (X i) (S754_infinity false) = true /\ SFltb (S754_infinity false) (X i) = false /\ SFeqb (X i) (S754_infinity false) = false).
  { intros i I. rewrite fnum_bnum. destruct (bnum_spec _ _ (FF i I)) as (_ & F & _). destruct (bnum (at_i a h i) 0); try discriminate F; auto. }
  assert (LT : forall i k, (i < n)%nat -> (k < n)%nat -> SFltb (X i) (X k) = Nat.ltb i k).
  { intros i k I K. rewrite fnum_ltb by auto. destruct SM as (P & _). destruct (Nat.ltb_spec i k), (Z.ltb_spec (at_i a h i) (at_i a h k)); try reflexivity; unfold at_i in *; nia. }
  assert (EQ : forall i, (i < n)%nat -> SFeqb (X i) (X i) = true).
  { intros i I. rewrite fnum_bnum. destruct (bnum_spec _ _ (FF i I)) as (_ & F & _). rewrite eqb_val by exact F. apply Req_bool_true. reflexivity. }
  assert (SD : i_is_empty (mkI (X (n - 1)) n_inf true true) = false).
  { unfold i_is_empty, n_gtb. cbn [i_start i_end i_so i_eo]. change (@n_ltb b64 B64) with SFltb. change (@n_eqb b64 B64) with SFeqb. change (@n_inf b64 B64) with (S754_infinity false).
    destruct (IR (n - 1)%nat ltac:(lia)) as (_ & -> & ->). reflexivity. }
  split; [|split; [exact SD|split; [apply EQ; lia|reflexivity]]].
  unfold i_intersects, i_inter2. rewrite SD, orb_false_r. destruct (i_is_empty (mkI (X 0) (X j) false false)); [reflexivity|].
  unfold later_start, earlier_end. cbn [i_start i_end i_so i_eo]. change (@n_ltb b64 B64) with SFltb. change (@n_inf b64 B64) with (S754_infinity false).
  destruct (IR j J) as (-> & _ & _). rewrite !LT by lia. cbn [Nat.ltb].
  assert (EM : forall i, (j <= i)%nat -> (i < n)%nat -> i_is_empty (mkI (X i) (X j) true false) = true).
  { intros i L I. unfold i_is_empty, n_gtb. cbn [i_start i_end i_so i_eo]. change (@n_ltb b64 B64) with SFltb. change (@n_eqb b64 B64) with SFeqb. rewrite LT by lia.
    destruct (Nat.eq_dec i j) as [->|NE]; [rewrite EQ by lia; apply orb_true_r|]. replace (Nat.ltb j i) with true by (symmetry; apply Nat.ltb_lt; lia). reflexivity. }
  destruct (Nat.ltb_spec 0 (n - 1)) as [N1|N1].
  - rewrite EM by lia. reflexivity.
  - replace (Nat.ltb (n - 1) 0) with false by (symmetry; apply Nat.ltb_ge; lia). cbn [orb]. rewrite EM by lia. reflexivity.
Qed.
Lemma new_acc vs src u : grid_small a h (length vs) -> at_k vs src (outs vs) 0 (acc_init ip u).
Proof.
  intros SM. destruct (set_grid (V := W) a h 0 (p_empty ip u) [] eq_refl eq_refl (or_introl eq_refl)) as (_ & O & I).
  { apply (fits_shorter a h 0 _ 0 (small_fits a h _ SM)). lia. }
  constructor; [lia|exact O|exact I|reflexivity|reflexivity|]. exists None. split; [reflexivity|left; reflexivity].
Qed.
Lemma told vs us src q k : vs <> [] -> us <> [] -> grid_small a h (length (vs ++ us)) -> on_grid a h 0 vs src -> at_k vs src (outs vs) k q ->
  on_grid a h 0 (vs ++ us) (fst (fst (p_append_list src (grid (at_i a h (length vs)) h 0 us)))) /\
  at_k (vs ++ us) (fst (fst (p_append_list src (grid (at_i a h (length vs)) h 0 us)))) (outs (vs ++ us)) k
    (fst (fst (acc_events q (snd (fst (p_append_list src (grid (at_i a h (length vs)) h 0 us))))))).
Proof.
  intros NV NU SM ON Q. destruct vs as [|v0 vs0]; [contradiction|]. destruct us as [|u0 us0]; [contradiction|].
  destruct (append_events a h 0 v0 vs0 u0 us0 src ON (small_fits a h _ SM)) as (s' & -> & O' & _). cbn [fst snd]. split; [exact O'|].
  set (vs := v0 :: vs0) in *. set (us := u0 :: us0) in *. pose proof (ak_le _ _ _ _ _ Q) as LE. assert (LA : (length vs < length (vs ++ us))%nat) by (rewrite app_length; cbn; lia).
  set (d := mkI (X (length vs0)) (X (length vs0 + S (length us0))) true false). cbn [acc_events].
  assert (SV : grid_small a h (length vs)) by (destruct SM as (P & A & B & C); unfold grid_small; repeat split; try assumption; nia).
  assert (LV : length vs0 = (length vs - 1)%nat) by (cbn; lia).
  assert (UI : update_interval d = mkI (X (length vs - 1)) n_inf true true) by (unfold update_interval, d; cbn [i_start i_so]; rewrite LV; reflexivity).
  assert (NP : (0 < length vs)%nat) by (cbn; lia).
  destruct (beyond (length vs) 0 SV NP) as [_ SD]. destruct (ak_upd _ _ _ _ _ Q) as (o & UP & _). destruct (bracket o _ SD) as [B1 B2].
  unfold begin_scan_update. rewrite UI. cbn [i_start i_so negb]. rewrite (ak_cur _ _ _ _ _ Q).
  assert (ST1 : (match (match k with O => None | S j => Some (X j) end) with
      | Some cur => if n_ltb (X (length vs - 1)) cur || n_eqb (X (length vs - 1)) cur && false then reset_scan q else (q, Ok tt)
      | None => (q, Ok tt) end) = (q, Ok tt)).
  { destruct k as [|j]; [reflexivity|]. rewrite (ltX vs (outs vs) SV NP (OL vs)) by lia. rewrite andb_false_r, orb_false_r. destruct (Nat.ltb_spec (length vs - 1) j); [lia|reflexivity]. }
  rewrite ST1. rewrite (ak_cur _ _ _ _ _ Q), (ak_start _ _ _ _ _ Q).
  assert (ST2 : (match (match k with O => None | S j => Some (X j) end), (match k with O => None | S _ => Some (X 0) end) with
      | Some cur, Some st => if n_ltb cur st then reset_scan q else (q, Ok tt)
      | _, _ => (q, Ok tt) end) = (q, Ok tt)).
  { destruct k as [|j]; [reflexivity|]. rewrite (ltX vs (outs vs) SV NP (OL vs)) by lia. reflexivity. }
  rewrite ST2.
  assert (RS : exists p', p_reset (a_pts q) (Some (mkI (X (length vs - 1)) n_inf true true)) = (p', [], Ok tt) /\ on_grid a h 0 (firstn k (outs vs)) p' /\ p_interp p' = ip).
  { pose proof (ak_pts _ _ _ _ _ Q) as OG. pose proof (touch_grid a h 0 _ _ OG) as [TU TD]. unfold p_reset. destruct (p_pts (a_pts q)) as [|pf pl] eqn:EP.
    - eexists. split; [reflexivity|]. split; [exact OG|apply Q].
    - destruct k as [|j]; [destruct OG as (P & _); rewrite P in EP; discriminate|].
      assert (LF : length (firstn (S j) (outs vs)) = S j) by (apply firstn_length_le; rewrite OL; exact LE). rewrite LF in TD, TU. cbn [grid_dom] in TD. rewrite TD.
      rewrite (fnum_at0 a h 0). destruct (beyond (length vs) j SV ltac:(lia)) as [-> _]. cbn [negb]. eexists. split; [reflexivity|]. split; [|apply Q].
      destruct OG as (G1 & G2 & G3 & _). repeat split; try assumption. eexists. split; [exact TU|]. rewrite LF. exact TD. }
  destruct RS as (p' & -> & OG' & IP'). cbn [set_apts a_upd]. rewrite UP, B1. cbn [ev_begin]. unfold end_scan_update. cbn [set_aupd set_apts a_upd]. rewrite UI, B2. cbn [fst].
  constructor; cbn [set_aupd set_apts a_pts a_cur a_start a_upd].
  - lia.
  - rewrite OP by exact LE. exact OG'.
  - exact IP'.
  - apply (ak_cur _ _ _ _ _ Q).
  - apply (ak_start _ _ _ _ _ Q).
  - exists None. split; [reflexivity|left; reflexivity].
Qed.
Lemma small_prefix n k : grid_small a h n -> (k <= n)%nat -> grid_small a h k.
Proof. intros (P & A & B & C) L. unfold grid_small. repeat split; try assumption; nia. Qed.
Lemma watched vs src q : watch64 vs src q -> ok vs -> grid_small a h (length vs) -> on_grid a h 0 vs src /\ vs <> [] /\ exists k, at_k vs src (outs vs) k q.
Proof.
  induction 1 as [vs src u R NV|vs src q fuel x R IH VX L|vs us src q R IH NU]; intros OK SM.
  - split; [apply (run_on_grid a h 0 vs src (small_fits a h _ SM) R)|]. split; [exact NV|]. exists O. apply new_acc, SM.
  - destruct (IH OK SM) as (ON & NV & k & Q). split; [exact ON|]. split; [exact NV|].
    assert (NP : (0 < length vs)%nat) by (destruct vs; [contradiction|cbn; lia]).
    destruct (query vs src (tfs src) (outs vs) SM NP ST ON (OL vs) (OT vs src OK SM ON) post fuel k q (SF2B x VX) Q L) as (k' & q' & Q' & _ & E).
    rewrite B2SF_SF2B in E. exists k'. unfold y64. destruct E as [[_ ->]|(_ & _ & ->)]; exact Q'.
  - assert (SV : grid_small a h (length vs)) by (apply (small_prefix _ _ SM); rewrite app_length; lia). destruct (IH (OKP _ _ OK) SV) as (ON & NV & k & Q).
    destruct (told vs us src q k NV NU SM ON Q) as [O' Q']. split; [exact O'|]. split; [destruct vs; [contradiction|discriminate]|]. exists k. exact Q'.
Qed.
(** at the points *)
Lemma watched_knot vs src q fuel i w : watch64 vs src q -> ok vs -> grid_small a h (length vs) -> (length vs < fuel)%nat -> nth_error (outs vs) i = Some w ->
  snd (y64 fuel src q (X i)) = Ok (post w).
Proof.
  intros R OK SM L E. destruct (watched vs src q R OK SM) as (ON & NV & k & Q). assert (NP : (0 < length vs)%nat) by (destruct vs; [contradiction|cbn; lia]).
  apply (query_knot vs src (tfs src) (outs vs) SM NP ST ON (OL vs) (OT vs src OK SM ON) post fuel k q i w Q L E).
Qed.
(** outside *)
Lemma watched_outside vs src q fuel x : watch64 vs src q -> ok vs -> grid_small a h (length vs) -> (length vs < fuel)%nat -> valid_binary 53 1024 x = true ->
  i_contains (p_dom src) x = false -> snd (y64 fuel src q x) = Ok v_none.
Proof.
  intros R OK SM L VX C. destruct (watched vs src q R OK SM) as (ON & NV & k & Q). assert (NP : (0 < length vs)%nat) by (destruct vs; [contradiction|cbn; lia]).
  destruct (query vs src (tfs src) (outs vs) SM NP ST ON (OL vs) (OT vs src OK SM ON) post fuel k q (SF2B x VX) Q L) as (k' & q' & _ & _ & E).
  rewrite B2SF_SF2B in E. unfold y64. destruct E as [[_ ->]|(C' & _ & _)]; [reflexivity|congruence].
Qed.
End History.
End Acc.
