(** The Extremas object over a Points source: whatever was asked before, y
    interpolates the extremas of all the source's points. *)
From Coq Require Import List ZArith QArith Qcanon Bool Lia Sorting.Sorted.
From Verif Require Import Base Num NumFacts Interval IntervalFacts Curve Points PointsSpec PointsIdx PointsOps PointsQuery PointsReset PointsCover PointsDec Combine Scan ScanFacts ScanInv ScanSource Extremas ExtremasFold ExtremasUniq ExtremasVal.
Import ListNotations.
Open Scope Qc_scope.

Section Inv.
Context (m : Qc) (Hm : 0 < m) (dev : Qc) (Hd : 0 <= dev) (R : Qc -> option Qc).
Notation extremas_of := (extremas_of dev R).
Notation own := (Some (Fin m)).

(** A Points source whose points are at least min_step apart, where the
    reference is not zero. *)
Record ex_source (s : pts xq (option xq)) (l : list spt) : Prop := {
  es_good : good s;
  es_pts : p_pts s = map fsp l;
  es_coarse : coarse m (p_pts s);
  es_ref : Forall (ref_nonzero R) l
}.
(** What holds between calls: some prefix of the points was scanned. *)
Record ex_inv (s : pts xq (option xq)) (l : list spt) (e : exs xq) (k : nat) : Prop := {
  ei_len : (k <= length l)%nat;
  ei_cur : x_cur e = option_map (fun p : spt => Fin (fst p)) (last_opt (firstn k l));
  ei_start : x_start e = option_map (fun p : spt => Fin (fst p)) (head_opt (firstn k l));
  ei_ext : exists es p, holds R e es p /\ extremas_of (firstn k l) es p;
  ei_dom : u_dom (x_upd e) = None \/ u_dom (x_upd e) = Some (p_dom s);
  ei_idle : PointsOps.idle (x_upd e)
}.

Lemma source_sorted s l : ex_source s l -> StronglySorted slt l.
Proof.
  intros [[[_ A] _] E _ _]. rewrite E in A. clear E. induction l as [|p l IH]; constructor; inversion A; subst; auto.
  rewrite Forall_forall in *. intros q I. apply (in_map fsp) in I. apply H2 in I. now apply lt_x_fin in I.
Qed.
Lemma firstn_sorted l k : StronglySorted slt l -> StronglySorted slt (firstn k l).
Proof.
  intros H. revert k. induction H as [|p l H IH F]; intros [|k]; cbn; constructor; auto.
  rewrite Forall_forall in *. intros q I. apply F. revert I. clear. revert k. induction l as [|a l IH]; intros [|k]; cbn; try tauto.
  intros [->|I]; auto. right. eapply IH; eauto.
Qed.
Lemma in_firstn {A} (l : list A) k x : In x (firstn k l) -> In x l.
Proof. revert k. induction l as [|a l IH]; intros [|k]; cbn; try tauto. intros [->|I]; auto. right. eapply IH; eauto. Qed.

Lemma source_nth s l k p : ex_source s l -> nth_error l k = Some p -> nth_error (p_pts s) k = Some (fsp p).
Proof. intros X N. rewrite (es_pts _ _ X). now apply map_nth_error. Qed.
Lemma source_next s l k p lim : ex_source s l -> nth_error l k = Some p ->
  p_x_next s (Fin (fst p)) own lim = Ok (option_map (fun p : spt => Fin (fst p)) (nth_error l (S k))).
Proof.
  intros X N. rewrite (knot_next s m k (fst p) (option_map Fin (snd p)) lim (es_good _ _ X) (es_coarse _ _ X) Hm (source_nth _ _ _ _ X N)).
  rewrite (es_pts _ _ X), nth_error_map. destruct (nth_error l (S k)); reflexivity.
Qed.
Lemma source_y s l p : ex_source s l -> In p l -> p_y s (Fin (fst p)) = Ok (option_map Fin (snd p)).
Proof.
  intros X I. apply (p_y_knot s (fst p)).
  - intros _. apply lerp_total_num.
  - apply X.
  - rewrite (es_pts _ _ X). now apply (in_map fsp).
Qed.
Lemma source_dom s l p : ex_source s l -> In p l -> i_contains (p_dom s) (Fin (fst p)) = true.
Proof. intros X I. apply (dom_point s (fsp p)); [apply X|]. rewrite (es_pts _ _ X). now apply in_map. Qed.

(** the cached domain is the source's *)
Lemma dom_ok s l e k : ex_inv s l e k -> exists e', ex_dom (p_dom s) e = (e', p_dom s) /\ ex_inv s l e' k /\
  x_cur e' = x_cur e /\ x_start e' = x_start e /\ x_ext e' = x_ext e /\ x_int e' = x_int e.
Proof.
  intros [L C St X D Id]. unfold ex_dom. destruct (u_dom (x_upd e)) as [d|] eqn:U.
  - exists e. destruct D as [D|D]; [discriminate|]. injection D as ->. split; auto. split; auto. constructor; auto.
  - eexists. split; [reflexivity|]. split; auto. constructor; auto; cbn.
    destruct X as (es & p & [] & X). exists es, p. split; auto. constructor; auto.
Qed.

Lemma init_scan_ok s l e x p : ex_source s l -> ex_inv s l e 0 -> head_opt l = Some p ->
  exists e', ex_init_scan (p_crv s) own e x = (e', Ok (Some (Fin (fst p)))) /\ ex_inv s l e' 0.
Proof.
  intros X I Hp. destruct (dom_ok s l e 0 I) as (e' & E & I' & _). exists e'. split; auto.
  unfold ex_init_scan. cbn [c_dom p_crv]. rewrite E. pose proof (es_good _ _ X) as G. pose proof (proj1 G) as A.
  assert (D : p_dom s = pts_domain (p_pts s)) by (apply calm_dom, good_calm, G).
  assert (NE : l <> []) by (destruct l; discriminate).
  destruct (last_opt_some l NE) as [z Hz].
  assert (EO : p_dom s = mkI (Fin (fst p)) (Fin (fst z)) false false).
  { rewrite D. unfold pts_domain. rewrite (es_pts _ _ X), head_map, last_map, Hp, Hz. reflexivity. }
  assert (NE' : i_is_empty (p_dom s) = false).
  { destruct (i_is_empty (p_dom s)) eqn:Y; auto. rewrite D in Y. apply pts_domain_empty_iff in Y; auto.
    rewrite (es_pts _ _ X) in Y. destruct l; [congruence|discriminate]. }
  rewrite NE'. assert (NI : i_is_negative_infinite (p_dom s) = false) by (rewrite EO; reflexivity).
  rewrite NI. cbn [orb]. replace (i_start (p_dom s)) with (Fin (fst p)) by (rewrite EO; reflexivity).
  rewrite (source_dom s l p X) by now apply head_opt_in. reflexivity.
Qed.

(** the extremas are not after the last scanned point, so the next step is the source's *)
Lemma step_next s l e k p lim : ex_source s l -> ex_inv s l e (S k) -> nth_error l k = Some p ->
  ex_next (p_crv s) own e (Fin (fst p)) own lim = Ok (option_map (fun p : spt => Fin (fst p)) (nth_error l (S k))).
Proof.
  intros X I N. unfold ex_next. rewrite resolve_self. cbn [n_add XQ xq_add].
  destruct (ei_ext _ _ _ _ I) as (es & po & H & E). rewrite (hd_int _ _ _ _ H), (hd_ext _ _ _ _ H).
  pose proof (firstn_sorted l (S k) (source_sorted s l X)) as SS.
  destruct (extremas_sound dev R _ _ _ SS E) as (SE & IN & _).
  destruct (i_contains (ext_interval (map fqp es)) (Fin (fst p + m))) eqn:C.
  - exfalso. apply int_contains in C; auto. destruct C as (a & z & _ & Z & _ & L2).
    destruct (IN z (last_opt_in _ _ Z)) as [J _]. rewrite (firstn_snoc _ _ _ N) in J, SS.
    assert (fst z <= fst p).
    { apply in_app_or in J. destruct J as [J|[J|[]]]; [|rewrite J; apply Qcle_refl].
      clear -SS J. apply Qclt_le_weak. induction (firstn k l) as [|b t IH]; [destruct J|]. cbn in SS. inversion SS; subst.
      destruct J as [->|J]; auto. rewrite Forall_forall in H2. apply (H2 p). apply in_or_app. right. now left. }
    qc_lra.
  - apply (source_next s l k p lim); auto.
Qed.

Lemma last_firstn_spt (l : list spt) k p : nth_error l k = Some p -> last_opt (firstn (S k) l) = Some p.
Proof. intros N. rewrite (firstn_snoc _ _ _ N). apply last_opt_app. Qed.
Lemma head_firstn_S {A} (l : list A) k j : head_opt (firstn (S k) l) = head_opt (firstn (S j) l).
Proof. destruct l; reflexivity. Qed.

(** Far enough: all points scanned, or an extrema confirmed at or after [q]. *)
Definition far (l : list spt) (e : exs xq) (q : Qc) (k : nat) : Prop :=
  k = length l \/ exists es p z, holds R e es p /\ extremas_of (firstn k l) es p /\ last_opt es = Some z /\ q <= fst z.

Lemma scan_loop_ok s l q : ex_source s l -> l <> [] -> forall fuel e k, ex_inv s l e k -> (length l - k < fuel)%nat ->
  exists e' k', ex_loop fuel (p_crv s) own (Fin dev) (ref_fun R) (Fin q) e = (e', Ok tt) /\ ex_inv s l e' k' /\ far l e' q k' /\ (k <= k')%nat.
Proof.
  intros X NE. pose proof (source_sorted s l X) as SS.
  induction fuel as [|f IH]; intros e k I Lf; [lia|]. cbn [ex_loop].
  assert (STEP : forall e1 p, nth_error l k = Some p -> x_start e1 = option_map (fun p : spt => Fin (fst p)) (head_opt (firstn (S k) l)) ->
    (exists es po, holds R e1 es po /\ extremas_of (firstn k l) es po) -> (u_dom (x_upd e1) = None \/ u_dom (x_upd e1) = Some (p_dom s)) -> PointsOps.idle (x_upd e1) ->
    exists e' k', (let '(e2, t) := extrema_scan (Fin dev) (ref_fun R) e1 (Fin (fst p)) (option_map Fin (snd p)) in
      match t with
      | Err er => (e2, Err er)
      | Ok _ => ex_loop f (p_crv s) own (Fin dev) (ref_fun R) (Fin q) (xset_cur e2 (Some (Fin (fst p))))
      end) = (e', Ok tt) /\ ex_inv s l e' k' /\ far l e' q k' /\ (k <= k')%nat).
  { intros e1 p N S1 (es & po & H & E) D1 Id1. assert (Lk : (k < length l)%nat) by (apply nth_error_Some; congruence).
    assert (RN : ref_nonzero R p).
    { pose proof (es_ref _ _ X) as F. rewrite Forall_forall in F. apply F. eapply nth_error_In; eauto. }
    destruct (scan_step dev R (firstn k l) e1 es po p Hd RN H E) as (e2 & es2 & po2 & E2 & Hh & Xx & _ & S2 & U2 & _).
    rewrite E2. rewrite <- (firstn_snoc _ _ _ N) in Xx.
    destruct (IH (xset_cur e2 (Some (Fin (fst p)))) (S k)) as (e' & k' & EE & I' & F' & L'); [|lia|].
    - constructor.
      + lia.
      + rewrite (last_firstn_spt _ _ _ N). reflexivity.
      + cbn [xset_cur x_start]. congruence.
      + exists es2, po2. split; auto. destruct Hh. constructor; auto.
      + cbn [xset_cur x_upd]. now rewrite U2.
      + cbn [xset_cur x_upd]. now rewrite U2.
    - exists e', k'. split; [exact EE|]. split; [exact I'|]. split; [exact F'|lia]. }
  pose proof (ei_cur _ _ _ _ I) as CUR. destruct k as [|j].
  - cbn [firstn last_opt rev head_opt option_map] in CUR. rewrite CUR. cbn [option_map].
    destruct (head_opt_some l NE) as [p Hp]. destruct (init_scan_ok s l e (Fin q) p X I Hp) as (e1 & E1 & I1).
    rewrite CUR. rewrite E1. cbn [x_cur xset_start]. rewrite (ei_cur _ _ _ _ I1). cbn [firstn last_opt rev head_opt option_map].
    cbn [c_dom c_y p_crv]. rewrite (source_dom s l p X) by now apply head_opt_in. cbn [negb].
    rewrite (source_y s l p X) by now apply head_opt_in.
    apply STEP.
    + destruct l; [discriminate|]. exact Hp.
    + cbn [xset_start x_start]. destruct l; [discriminate|]. injection Hp as ->. reflexivity.
    + destruct (ei_ext _ _ _ _ I1) as (es & po & [] & Xx). exists es, po. split; auto. constructor; auto.
    + apply I1.
    + apply I1.
  - assert (Lj : (j < length l)%nat) by (pose proof (ei_len _ _ _ _ I); lia).
    destruct (nth_error l j) as [z|] eqn:NZ; [|apply nth_error_None in NZ; lia].
    rewrite (last_firstn_spt _ _ _ NZ) in CUR. cbn [option_map] in CUR. rewrite CUR.
    assert (GO : exists e1 go, ex_continue (p_dom s) e (Fin (fst z)) (Fin q) = (e1, go) /\ ex_inv s l e1 (S j) /\
      x_cur e1 = x_cur e /\ (go = false -> far l e1 q (S j))).
    { unfold ex_continue. destruct (n_ltb (Fin (fst z)) (Fin q)) eqn:LT.
      - exists e, true. split; [reflexivity|]. split; [exact I|]. split; [reflexivity|]. discriminate.
      - destruct (dom_ok s l e (S j) I) as (e1 & ED & I1 & C1 & _). rewrite ED.
        rewrite (source_dom s l z X) by (eapply nth_error_In; eauto). cbn [negb].
        eexists _, _. split; [reflexivity|]. split; [exact I1|]. split; [exact C1|].
        intros G. apply negb_false_iff in G. destruct (ei_ext _ _ _ _ I1) as (es & po & H & E).
        rewrite (hd_int _ _ _ _ H), (hd_ext _ _ _ _ H) in G.
        apply int_upto in G; [|exact (proj1 (extremas_sound dev R _ _ _ (firstn_sorted l (S j) SS) E))].
        destruct G as (w & W & LW). right. exists es, po, w. auto. }
    destruct GO as (e1 & go & EG & I1 & C1 & FG). cbn [c_dom p_crv]. rewrite EG. destruct go.
    + rewrite C1, CUR. rewrite (step_next s l e1 j z _ X I1 NZ).
      destruct (nth_error l (S j)) as [p|] eqn:N; cbn [option_map].
      2:{ exists e1, (S j). split; auto. split; auto. split; auto. left. apply nth_error_None in N. lia. }
      assert (Ip : In p l) by (eapply nth_error_In; eauto).
      rewrite (source_dom s l p X Ip). cbn [negb]. rewrite C1, CUR.
      assert (LT : fst z < fst p).
      { destruct (nth_split2 _ _ _ _ NZ N) as (l1 & l2 & EL). clear -SS EL. subst l. induction l1 as [|b l1 IH]; inversion SS; subst; auto.
        inversion H2; subst. auto. }
      cbn [n_leb XQ xq_leb]. destruct (Qcleb (fst p) (fst z)) eqn:LE; qb_simpl; [exfalso; qc_lra|].
      cbn [c_y p_crv]. rewrite (source_y s l p X Ip). apply STEP; auto.
      * rewrite (ei_start _ _ _ _ I1). now rewrite (head_firstn_S l j (S j)).
      * apply I1.
      * apply I1.
      * apply I1.
    + exists e1, (S j). split; auto.
Qed.

(** y: the value interpolated from the extremas of all the points. *)
Lemma init_inv s l : ex_inv s l ex_init 0.
Proof.
  constructor; cbn; auto; try lia; [|split; reflexivity]. exists [], None. split; [constructor; reflexivity|]. apply extremas_nil.
Qed.

Lemma value_prefix es t q v z : StronglySorted xlt (es ++ t) -> last_opt es = Some z -> q <= fst z ->
  value ILinear (map fop es) q v -> value ILinear (map fop (es ++ t)) q v.
Proof.
  intros S Z L H. rewrite map_app. inversion H; subst; try discriminate.
  - apply val_knot. apply in_or_app. auto.
  - rewrite H1. eapply (val_lerp _ _ _ _ l1 a va b vb (l2 ++ map fop t)); eauto. rewrite <- app_assoc. reflexivity.
  - apply val_outside. left. destruct H0 as [H0|H0].
    + intros p I. apply in_app_or in I. destruct I as [I|I]; auto. apply in_map_iff in I. destruct I as (y & <- & Iy).
      apply lt_x_fin. apply sorted_app in S. destruct S as (_ & _ & C). specialize (C z y (last_opt_in _ _ Z) Iy). unfold xlt in C. qc_lra.
    + exfalso. specialize (H0 (fop z) (in_map fop _ _ (last_opt_in _ _ Z))). cbn in H0. apply lt_x_fin in H0. qc_lra.
Qed.

Theorem ex_query s l e k q fuel es p : ex_source s l -> ex_inv s l e k -> (length l < fuel)%nat -> extremas_of l es p ->
  exists e' k' v, ex_y fuel (p_crv s) own (Fin dev) (ref_fun R) e (Fin q) = (e', Ok v) /\ ex_inv s l e' k' /\ value ILinear (map fop es) q v.
Proof.
  intros X I Lf E. pose proof (source_sorted s l X) as SS. destruct (extremas_sound dev R _ _ _ SS E) as (SE & IN & _).
  unfold ex_y. cbn [c_dom p_crv]. destruct (i_contains (p_dom s) (Fin q)) eqn:C; cbn [negb].
  - assert (NE : l <> []).
    { intros ->. apply span_dom in C; [|apply X]. rewrite (es_pts _ _ X) in C. apply span_nonempty in C. now apply C. }
    unfold ex_scan. rewrite (ei_start _ _ _ _ I).
    replace (match option_map (fun p0 : spt => Fin (fst p0)) (head_opt (firstn k l)) with
             | Some s0 => if (Fin q <? s0)%num then ex_reset e else e | None => e end) with e.
    2:{ destruct k as [|k]; [reflexivity|]. destruct l as [|a l]; [reflexivity|]. cbn [firstn head_opt option_map].
        cbn [n_ltb XQ xq_ltb]. destruct (Qcltb q (fst a)) eqn:LT; auto. qb_simpl. exfalso.
        apply span_dom in C; [|apply X]. destruct C as (x & y & vx & vy & I1 & _ & L1 & _).
        rewrite (es_pts _ _ X) in I1. apply in_map_iff in I1. destruct I1 as (w & Ew & Iw). injection Ew as Ex _. rewrite <- Ex in L1.
        inversion SS; subst. rewrite Forall_forall in H2. destruct Iw as [->|Iw]; [qc_lra|]. specialize (H2 _ Iw). unfold slt in H2. qc_lra. }
    destruct (scan_loop_ok s l q X NE fuel e k I ltac:(lia)) as (e' & k' & EL & I' & F & _). rewrite EL.
    destruct (ei_ext _ _ _ _ I') as (es1 & p1 & Hh & E1).
    pose proof (firstn_sorted l k' SS) as SK. destruct (extremas_sound dev R _ _ _ SK E1) as (SE1 & _).
    destruct (scanned_value e' es1 q SE1 (hd_ext _ _ _ _ Hh) (hd_int _ _ _ _ Hh)) as (v & Ev & Vv). rewrite Ev.
    exists e', k', v. split; auto. split; auto.
    destruct F as [->|(es2 & p2 & z & _ & E2 & Z & LZ)].
    + rewrite firstn_all in E1. destruct (extremas_unique dev R _ _ _ _ _ E1 E) as [-> _]. exact Vv.
    + destruct (extremas_unique dev R _ _ _ _ _ E1 E2) as [<- _].
      rewrite <- (firstn_skipn k' l) in E. destruct (extremas_prefix dev R (firstn k' l) (skipn k' l) es1 p1 es p Hd) as [t ->]; auto.
      { pose proof (es_ref _ _ X) as FR. rewrite <- (firstn_skipn k' l) in FR. apply Forall_app in FR. apply FR. }
      eapply value_prefix; eauto.
  - destruct (dom_ok s l e k I) as (e' & ED & I' & _). rewrite ED, C. cbn [negb]. exists e', k, None. split; auto. split; auto.
    change (@None xq) with (@v_none xq (option xq) NumVal). apply val_outside.
    assert (CI : forall x, In x es -> i_contains (p_dom s) (Fin (fst x)) = true).
    { intros x Ix. destruct (IN x Ix) as [Jx _]. apply (source_dom s l _ X Jx). }
    destruct es as [|a es0]; [left; intros x []|]. set (es := a :: es0) in *. destruct (last_opt_some es) as [z Z]; [discriminate|].
    destruct (Qclt_le_dec q (fst a)) as [L1|L1].
    + left. intros x Ix. apply in_map_iff in Ix. destruct Ix as (y & <- & Iy). apply lt_x_fin. 
      apply (Qclt_le_trans _ (fst a)); auto. apply (first_min es); auto.
    + right. intros x Ix. apply in_map_iff in Ix. destruct Ix as (y & <- & Iy). apply lt_x_fin.
      destruct (Qclt_le_dec (fst z) q) as [L2|L2]; [apply (Qcle_lt_trans _ (fst z)); auto; apply (last_max es); auto|].
      exfalso. pose proof (CI a (or_introl eq_refl)) as C1. pose proof (CI z (last_opt_in _ _ Z)) as C2.
      pose proof (es_good _ _ X) as G. apply (span_dom s) in C1; auto. apply (span_dom s) in C2; auto.
      assert (i_contains (p_dom s) (Fin q) = true); [|congruence]. apply span_dom; auto.
      destruct C1 as (x1 & _ & v1 & _ & J1 & _ & K1 & _), C2 as (_ & x2 & _ & v2 & _ & J2 & _ & K2).
      exists x1, x2, v1, v2. repeat split; auto; qc_lra.
Qed.

(** Any sequence of calls of y on a fresh Extremas. *)
Fixpoint queries (fuel : nat) (s : pts xq (option xq)) (e : exs xq) (qs : list Qc) : exs xq * list (res (option xq)) :=
  match qs with
  | [] => (e, [])
  | q :: qs' => let '(e, v) := ex_y fuel (p_crv s) own (Fin dev) (ref_fun R) e (Fin q) in
                let '(e, vs) := queries fuel s e qs' in (e, v :: vs)
  end.
Theorem ex_queries s l fuel qs es p : ex_source s l -> (length l < fuel)%nat -> extremas_of l es p ->
  exists e vs k, queries fuel s ex_init qs = (e, map Ok vs) /\ Forall2 (value ILinear (map fop es)) qs vs /\
    ex_inv s l e k.
Proof.
  intros X Lf E. cut (forall e k, ex_inv s l e k -> exists e' vs k', queries fuel s e qs = (e', map Ok vs) /\ Forall2 (value ILinear (map fop es)) qs vs /\ ex_inv s l e' k').
  { intros H. apply (H ex_init 0%nat). apply init_inv. }
  induction qs as [|q qs IH]; intros e k I; cbn [queries].
  - exists e, [], k. auto.
  - destruct (ex_query s l e k q fuel es p X I Lf E) as (e1 & k1 & v & Ev & I1 & Vv). rewrite Ev.
    destruct (IH e1 k1 I1) as (e2 & vs & k2 & Eq & F & I2). rewrite Eq. exists e2, (v :: vs), k2. split; [reflexivity|]. split; [constructor; auto|exact I2].
Qed.

(** ** An update that removes every extrema *)
Lemma update_contains D d q : i_start D = Fin d -> i_contains (update_interval D) (Fin q) = true <-> d < q \/ (i_so D = false /\ d = q).
Proof.
  intros E. unfold update_interval, i_contains, i_contains_gen, i_is_empty, above_start, below_end, n_gtb. rewrite E. cbn.
  rewrite andb_true_r, orb_true_iff, andb_true_iff, negb_true_iff, Qcltb_true, Qceqb_true. tauto.
Qed.
Lemma prune_all D (es : list (Qc * Qc)) : (forall p, In p es -> i_contains D (Fin (fst p)) = true) ->
  ex_prune D (map fqp es) = ([], match es with [] => false | _ => true end).
Proof.
  induction es as [|p es IH]; intros H; cbn; auto. rewrite (H p) by now left. rewrite IH by (intros; apply H; now right). reflexivity.
Qed.
Theorem restart s l e k s' l' es po D d : ex_inv s l e k -> holds R e es po -> extremas_of (firstn k l) es po ->
  (po = None \/ es <> []) -> i_start D = Fin d ->
  (forall p, In p es -> i_contains (update_interval D) (Fin (fst p)) = true) ->
  (forall c, x_cur e = Some (Fin c) -> d < c \/ (i_so D = false /\ d = c)) ->
  exists e', ex_events (ref_fun R) e [EvBegin D; EvEnd D] = (e', [EvBegin (update_interval D); EvEnd (update_interval D)], Ok tt) /\
    ex_inv s' l' e' 0.
Proof.
  intros I H X PO Sd IN CU. destruct I as [Lk CUR ST _ _ Id].
  assert (E1 : exists e1, e1 = mkX None None (x_ext e) (x_int e) (x_poss e) (x_phase e) (x_upd e) /\
    (forall r, ex_begin_scan r e D = ex_begin r e1 (update_interval D))).
  { eexists. split; [reflexivity|]. intros r. unfold ex_begin_scan. cbn [update_interval i_start i_so].
    assert (EE : (match x_cur e with
           | Some cur => if ((i_start (update_interval D) <? cur)%num || ((i_start (update_interval D) =? cur)%num && negb (i_so (update_interval D))))%bool then ex_reset e else e
           | None => e
           end) = mkX None None (x_ext e) (x_int e) (x_poss e) (x_phase e) (x_upd e)).
    { cbn [update_interval i_start i_so]. rewrite Sd. destruct (last_opt (firstn k l)) as [c|] eqn:LO.
      - cbn in CUR. rewrite CUR. specialize (CU _ CUR). cbn.
        replace (Qcltb d (fst c) || Qceqb d (fst c) && negb (i_so D))%bool with true; [reflexivity|].
        symmetry. rewrite orb_true_iff, andb_true_iff, negb_true_iff, Qcltb_true, Qceqb_true. tauto.
      - cbn in CUR. rewrite CUR. destruct k as [|k].
        + destruct e. cbn in *. congruence.
        + destruct l as [|a l].
          * destruct e. cbn in *. congruence.
          * exfalso. destruct (last_opt_some (firstn (S k) (a :: l))) as [y Y]; [discriminate|]. congruence. }
    cbn [update_interval i_start i_so] in EE. rewrite EE. reflexivity. }
  destruct E1 as (e1 & Ee1 & BS). destruct (update_ok D d Sd) as [KU NU].
  cbn [ex_events]. rewrite BS. unfold ex_begin. subst e1. cbn [x_upd].
  rewrite begin_idle by auto. unfold xset_upd. cbn [x_upd x_ext x_start x_cur x_int x_poss x_phase].
  rewrite (hd_ext _ _ _ _ H), <- map_rev, prune_all by (intros p Ip; apply IN; now apply in_rev).
  assert (XX : (if match rev es with [] => false | _ :: _ => true end
    then did_update (mkX None None (map fqp es) (x_int e) (x_poss e) (x_phase e) (mkU (update_interval D) i_empty (u_dom (x_upd e)))) (rev [])
    else mkX None None (map fqp es) (x_int e) (x_poss e) (x_phase e) (mkU (update_interval D) i_empty (u_dom (x_upd e)))) =
    mkX None None [] i_empty None None (mkU (update_interval D) i_empty (u_dom (x_upd e)))).
  { destruct es as [|p es].
    - destruct PO as [->|PO]; [|congruence]. cbn. destruct H as [HE HI HP HF]. rewrite HI, HP, HF, HE. reflexivity.
    - destruct (rev (p :: es)) eqn:RV; [|reflexivity]. apply (f_equal (@length _)) in RV. rewrite rev_length in RV. discriminate. }
  rewrite XX. cbn [x_ext last_opt rev head_opt xset_cur x_start x_int x_poss x_phase x_upd].
  unfold ex_end_scan, ex_end, xset_cur. cbn [x_upd x_ext x_start x_cur x_int x_poss x_phase]. rewrite end_begun by auto. cbn [ev_begin ev_end app].
  eexists. split; [reflexivity|]. constructor; cbn; auto; try lia; [|split; reflexivity].
  exists [], None. split; [constructor; reflexivity|apply extremas_nil].
Qed.
End Inv.

(** ** What an update does when an extrema is kept *)
(** The last confirmed extrema becomes the possible one again ... *)
Theorem kept_is_possible {T} {N : Num T} (r : T -> res (option T)) e D e' out p : ex_begin r e D = (e', out, Ok tt) -> last_opt (x_ext e') = Some p ->
  x_poss e' = Some p /\ x_cur e' = Some (fst p) /\ exists y0, r (fst p) = Ok (Some y0) /\ x_phase e' = Some (n_sub (snd p) y0).
Proof.
  unfold ex_begin. destruct (begin_update (x_upd e) D) as [u o]. destruct (ex_prune D _) as [l b].
  match goal with |- context [if b then ?a else ?c] => set (e1 := if b then a else c) end.
  destruct (last_opt (x_ext e1)) as [z|] eqn:Z.
  - destruct (r (fst z)) as [[y0|]|er] eqn:Rz; intros E L; inversion E; subst. cbn in *. rewrite Z in L. injection L as <-.
    repeat split; eauto.
  - intros E L. inversion E; subst. cbn in L. congruence.
Qed.
(** ... so that the next point on the other side confirms it a second time. *)
Theorem repeats dev R e x y y0 p ph : x_poss e = Some (fqp p) -> x_phase e = Some (Fin ph) -> last_opt (x_ext e) = Some (fqp p) ->
  R x = Some y0 -> y0 <> 0 -> deviates dev R (x, y) -> ph * (y - y0) < 0 ->
  exists e' l, extrema_scan (Fin dev) (ref_fun R) e (Fin x) (Some (Fin y)) = (e', Ok tt) /\ x_ext e' = l ++ [fqp p; fqp p].
Proof.
  intros P F L Rx Z D T. unfold extrema_scan. cbn [ref_fun]. rewrite Rx. cbn [option_map n_div XQ xq_div].
  destruct (Qceqb y0 0) eqn:EZ; qb_simpl; [contradiction|]. rewrite devb_abs.
  rewrite (proj2 (devb_iff dev R x y y0 Rx) D). cbn [negb]. rewrite P, F. unfold fqp at 1. cbn [fst snd].
  unfold n_zero. cbn [n_sub n_mul n_ltb n_ofZ XQ xq_sub xq_mul xq_ltb]. change (QcofZ 0) with 0.
  rewrite (proj2 (Qcltb_true _ _) T). unfold confirm. rewrite P. cbn [did_update xset_poss x_ext].
  assert (SP : exists l, x_ext e = l ++ [fqp p]).
  { destruct (x_ext e) as [|a t] using rev_ind; [discriminate|]. rewrite last_opt_app in L. injection L as ->. eauto. }
  destruct SP as [l SP]. exists (xset_poss (did_update e (x_ext e ++ [fqp p])) (Some (Fin x, Fin y)) (Some (Fin (y - y0)))), l.
  split; [reflexivity|]. cbn. rewrite SP, <- app_assoc. reflexivity.
Qed.
(** A zero of the reference where the source has a value raises. *)
Theorem zero_reference dev R e x y : R x = Some 0 ->
  extrema_scan (Fin dev) (ref_fun R) e (Fin x) (Some (Fin y)) = (e, Err EZeroDiv).
Proof. intros H. unfold extrema_scan. cbn [ref_fun]. rewrite H. reflexivity. Qed.

(** ** What an update of the source or the reference leaves *)
Lemma before_start (D : ival xq) q q' : n_gtb (i_start D) (Fin q) = true -> q' <= q -> i_contains D (Fin q') = false.
Proof.
  intros G L. unfold i_contains, i_contains_gen, above_start. cbn [negb orb].
  assert (A : n_ltb (i_start D) (Fin q') = false /\ n_eqb (i_start D) (Fin q') = false).
  { destruct (i_start D) as [a| | |]; cbn in *; try discriminate; auto.
    rewrite Qcltb_true in G. split; [apply Qcltb_false; qc_lra|apply Qceqb_false; intros ->; qc_lra]. }
  destruct A as [-> ->]. now rewrite andb_false_r, andb_false_r.
Qed.
Lemma filter_all {A} (f : A -> bool) l : (forall x, In x l -> f x = true) -> filter f l = l.
Proof.
  induction l as [|a l IH]; intros H; cbn; auto. rewrite (H a) by now left. rewrite IH; auto. intros; apply H; now right.
Qed.
Lemma prune_keeps D : forall es, StronglySorted (fun p q => xlt q p) es ->
  ex_prune D (map fqp es) = (map fqp (filter (fun p => negb (i_contains D (Fin (fst p)))) es),
    existsb (fun p => i_contains D (Fin (fst p))) es).
Proof.
  induction es as [|p es IH]; intros S; [reflexivity|]. inversion S as [|? ? S' F]; subst.
  cbn [map ex_prune]. change (fst (fqp p)) with (Fin (fst p)). cbn [filter existsb]. rewrite IH by auto.
  destruct (i_contains D (Fin (fst p))) eqn:C; [reflexivity|]. cbn [negb orb fst].
  destruct (n_gtb (i_start D) (Fin (fst p))) eqn:G; [|reflexivity].
  assert (O : forall x, In x es -> i_contains D (Fin (fst x)) = false).
  { intros x Ix. rewrite Forall_forall in F. apply (before_start D (fst p)); auto. specialize (F x Ix). unfold xlt in F. qc_lra. }
  rewrite filter_all by (intros x Ix; now rewrite O). f_equal. symmetry.
  destruct (existsb _ es) eqn:X; auto. apply existsb_exists in X as (x & Ix & Cx). now rewrite O in Cx.
Qed.
Lemma sorted_rev es : StronglySorted xlt es -> StronglySorted (fun p q => xlt q p) (rev es).
Proof.
  induction es as [|p es IH]; intros S; [constructor|]. inversion S as [|? ? S' F]; subst. cbn.
  specialize (IH S'). revert IH F. generalize (rev es) (fun x => in_rev es x). intros l IN IH F.
  assert (F' : forall x, In x l -> xlt p x). { intros x Ix. rewrite Forall_forall in F. apply F, IN, Ix. }
  clear IN F S S'. induction l as [|a l IHl]; cbn; [repeat constructor|]. inversion IH as [|? ? S' F]; subst. constructor.
  - apply IHl; auto. intros; apply F'. now right.
  - apply Forall_app. split; auto. constructor; auto. apply F'. now left.
Qed.
Lemma filter_rev {A} (f : A -> bool) l : filter f (rev l) = rev (filter f l).
Proof.
  induction l as [|a l IH]; cbn; auto. rewrite filter_app, IH. cbn. destruct (f a); cbn; auto using app_nil_r.
Qed.
Theorem pruned r e es D e' out : StronglySorted xlt es -> x_ext e = map fqp es -> x_int e = ext_interval (x_ext e) ->
  ex_begin r e D = (e', out, Ok tt) ->
  x_ext e' = map fqp (filter (fun p => negb (i_contains D (Fin (fst p)))) es) /\
  x_int e' = ext_interval (x_ext e') /\ x_cur e' = option_map fst (last_opt (x_ext e')) /\
  x_start e' = x_start e.
Proof.
  intros S E EI. unfold ex_begin. destruct (begin_update (x_upd e) D) as [u o].
  cbn [xset_upd x_ext]. rewrite E, <- map_rev, prune_keeps by now apply sorted_rev.
  rewrite filter_rev, map_rev, rev_involutive.
  set (l := map fqp (filter _ es)). set (e1 := if existsb _ _ then _ else _).
  assert (X : x_ext e1 = l /\ x_int e1 = ext_interval l /\ x_start e1 = x_start e).
  { unfold e1. destruct (existsb _ (rev es)) eqn:B.
    - repeat split.
    - cbn [xset_upd x_ext x_int x_start]. rewrite EI, E. unfold l. rewrite filter_all; auto. intros x Ix.
      destruct (i_contains D (Fin (fst x))) eqn:C; auto. apply in_rev in Ix.
      assert (existsb (fun p => i_contains D (Fin (fst p))) (rev es) = true) by (apply existsb_exists; eauto). congruence. }
  destruct X as (X1 & X2 & X3). destruct (last_opt (x_ext e1)) as [z|] eqn:Z.
  - destruct (r (fst z)) as [[y0|]|er]; intros Q; inversion Q; subst; cbn. rewrite X1, X2, X3. repeat split.
    rewrite <- X1, Z. reflexivity.
  - intros Q; inversion Q; subst. cbn. rewrite X1, X2, X3. repeat split. rewrite <- X1, Z. reflexivity.
Qed.
