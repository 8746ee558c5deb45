(** The invariant of an accumulating curve: its points are the specified values
    on a prefix of the source, and no query or source operation breaks that. *)
From Coq Require Import List ZArith QArith Qcanon Bool Sorting.Sorted Lia Arith.
From Verif Require Import Base Num NumFacts Interval IntervalFacts Curve BaseFacts.
From Verif Require Import Points PointsSpec PointsIdx PointsQuery PointsDom PointsOps PointsMut PointsReset PointsReplace PointsCover PointsHist.
From Verif Require Import Combine CombineFacts CombineTop Scan ScanFacts ScanSource.
Import ListNotations.

(** ** The specification: a fold over the source's points *)
Section Spec.
Context {V W : Type} {WV : Val xq V} {WW : Val xq W}.
Implicit Types l pre : list (xq * V).

(** [G pre p last]: the value at the point [p], which follows the points [pre],
    when the value at the last of them is [last] (None if there is none). *)
Context (G : list (xq * V) -> xq * V -> W -> W).

Fixpoint acc_list pre (last : W) l : list (xq * W) :=
  match l with
  | [] => []
  | p :: l' => let w := G pre p last in (fst p, w) :: acc_list (pre ++ [p]) w l'
  end.
Definition spec l : list (xq * W) := acc_list [] v_none l.
Definition lastv (d : W) (m : list (xq * W)) : W := match last_opt m with Some p => snd p | None => d end.

Lemma lastv_cons d p m : lastv d (p :: m) = lastv (snd p) m.
Proof.
  unfold lastv. destruct m as [|q m]; [reflexivity|].
  change (p :: q :: m) with ([p] ++ (q :: m)). rewrite last_opt_app2 by discriminate.
  destruct (last_opt_cons q m) as [z ->]. reflexivity.
Qed.
Lemma lastv_app d m p : lastv d (m ++ [p]) = snd p.
Proof. unfold lastv. now rewrite last_opt_app. Qed.

Lemma acc_list_app l1 : forall pre last l2,
  acc_list pre last (l1 ++ l2) = acc_list pre last l1 ++ acc_list (pre ++ l1) (lastv last (acc_list pre last l1)) l2.
Proof.
  induction l1 as [|p l1 IH]; intros pre last l2; cbn.
  - now rewrite app_nil_r.
  - rewrite lastv_cons. cbn [snd]. now rewrite IH, <- app_assoc.
Qed.
Lemma acc_list_xs l : forall pre last, map fst (acc_list pre last l) = map fst l.
Proof. induction l as [|p l IH]; intros pre last; cbn; [reflexivity|]. now rewrite IH. Qed.
Lemma spec_xs l : map fst (spec l) = map fst l.
Proof. apply acc_list_xs. Qed.
Lemma spec_length l : length (spec l) = length l.
Proof. rewrite <- (map_length fst (spec l)), spec_xs. apply map_length. Qed.
Lemma spec_snoc l p : spec (l ++ [p]) = spec l ++ [(fst p, G l p (lastv v_none (spec l)))].
Proof. unfold spec. now rewrite acc_list_app. Qed.
Lemma spec_app l1 l2 : exists t, spec (l1 ++ l2) = spec l1 ++ t.
Proof. eexists. unfold spec. now rewrite acc_list_app. Qed.
Lemma spec_firstn l k : firstn k (spec l) = spec (firstn k l).
Proof.
  rewrite <- (firstn_skipn k l) at 1. destruct (spec_app (firstn k l) (skipn k l)) as [t E]. rewrite E.
  destruct (le_lt_dec k (length l)) as [L|L].
  - rewrite firstn_app, spec_length, firstn_length_le by auto. rewrite Nat.sub_diag, firstn_O, app_nil_r.
    rewrite <- (firstn_length_le l L) at 1. rewrite <- spec_length. apply firstn_all.
  - assert (X : t = []).
    { apply (f_equal (@length _)) in E. rewrite app_length, !spec_length, firstn_skipn in E.
      rewrite (firstn_all2 l) in E by lia. destruct t; [reflexivity|cbn in E; lia]. }
    subst t. rewrite app_nil_r. apply firstn_all2. rewrite spec_length, firstn_length. lia.
Qed.
Lemma spec_split l k : exists t, spec l = spec (firstn k l) ++ t.
Proof. rewrite <- spec_firstn. exists (skipn k (spec l)). symmetry. apply firstn_skipn. Qed.
Lemma spec_nth l k p : nth_error l k = Some p ->
  nth_error (spec l) k = Some (fst p, G (firstn k l) p (lastv v_none (spec (firstn k l)))).
Proof.
  intros H. assert (L : (k < length l)%nat) by (apply nth_error_Some; congruence).
  destruct (spec_split l (S k)) as [t E]. rewrite E.
  assert (F : firstn (S k) l = firstn k l ++ [p]).
  { clear -H. revert k H. induction l as [|a l IH]; intros [|k] H; try discriminate; cbn in *.
    - injection H as ->. reflexivity.
    - now rewrite <- IH. }
  rewrite F, spec_snoc, <- app_assoc, nth_error_app2; rewrite spec_length, firstn_length_le by lia; [|lia].
  now rewrite Nat.sub_diag.
Qed.
End Spec.

Lemma ascending_xs {V W} (l : list (xq * V)) (l' : list (xq * W)) : map fst l = map fst l' -> ascending l -> ascending l'.
Proof.
  intros E A. apply ascending_knots in A. destruct A as [qs [K1 K2]]. apply ascending_knots. exists qs. split; [congruence|exact K2].
Qed.
Lemma equally_xs2 {V W} (l : list (xq * V)) (l' : list (xq * W)) : map fst l = map fst l' -> equally_spaced l -> equally_spaced l'.
Proof.
  intros E (x0 & h & P & H). exists x0, h. split; [exact P|]. intros i p I.
  assert (M : nth_error (map fst l) i = Some (fst p)) by (rewrite E; now apply map_nth_error).
  rewrite nth_error_map in M. destruct (nth_error l i) as [r|] eqn:R; [|discriminate]. injection M as <-. now apply H.
Qed.
Lemma firstn_snoc {A} (l : list A) k p : nth_error l k = Some p -> firstn (S k) l = firstn k l ++ [p].
Proof.
  revert k. induction l as [|a l IH]; intros [|k] H; try discriminate; cbn in *.
  - injection H as ->. reflexivity.
  - now rewrite <- IH.
Qed.
Lemma equally_firstn {V} {WV : Val xq V} (l : list (xq * V)) k : equally_spaced l -> equally_spaced (firstn k l).
Proof.
  intros (x0 & h & P & H). exists x0, h. split; [exact P|]. intros i p I. apply H.
  rewrite <- (firstn_skipn k l), nth_error_app1; [exact I|]. apply nth_error_Some. congruence.
Qed.
Lemma ascending_firstn {V} {WV : Val xq V} (l : list (xq * V)) k : ascending l -> ascending (firstn k l).
Proof. intros A. rewrite <- (firstn_skipn k l) in A. now apply ascending_app_iff in A. Qed.

Section AppendNext.
Context {W : Type} {WW : Val xq W}.
Lemma p_append_next (s : pts xq W) q w : good s -> p_force s = true -> ascending (p_pts s ++ [(Fin q, w)]) ->
  equally_spaced (p_pts s ++ [(Fin q, w)]) ->
  exists s' evs, p_append s (Fin q, w) = (s', evs, Ok tt) /\ p_pts s' = p_pts s ++ [(Fin q, w)] /\ good s' /\
    p_force s' = true /\ p_interp s' = p_interp s.
Proof.
  intros G F A E.
  assert (X : exists s' evs, p_append s (Fin q, w) = (s', evs, Ok tt) /\ p_pts s' = p_pts s ++ [(Fin q, w)] /\ good s').
  { destruct (p_pts s) as [|p ps] eqn:P.
    - pose proof (proj1 (proj1 (good_calm s) G)) as C.
      destruct (p_set_cases s [(Fin q, w)] None C (ascending_one q w)) as (b & B & X); [discriminate|].
      cbn in B. injection B as <-. rewrite andb_false_r in X. destruct X as (s' & X & S & Q).
      exists s', (notify (set_domain s [(Fin q, w)] None)). unfold p_append, p_append_list. rewrite P. split; [exact X|].
      split; [apply S|]. apply good_calm. split; [apply S|]. intros _. rewrite (so_pts _ _ _ _ _ S). exact E.
    - unfold p_append. rewrite <- P in *. apply p_append_accepts; auto. rewrite P. discriminate. }
  destruct X as (s' & evs & X & P & G'). exists s', evs. split; [exact X|]. split; [exact P|]. split; [exact G'|].
  rewrite <- F. apply (step_force s (OAppend q w) s' evs); auto. exact I.
Qed.

Lemma p_y_knot (s : pts xq W) q w : (p_interp s = ILinear -> lerp_total (V := W)) -> good s -> In (Fin q, w) (p_pts s) -> p_y s (Fin q) = Ok w.
Proof.
  intros LT G H. destruct (p_y_value s q LT G) as (v & -> & X). f_equal.
  eapply value_unique; [apply G|exact X|]. now apply val_knot.
Qed.
End AppendNext.

(** ** The invariant *)
Section Inv.
Context {V W : Type} {WV : Val xq V} {WW : Val xq W}.
Context (LV : lerp_total (V := V)) (LW : lerp_total (V := W)).
Context (G : list (xq * V) -> xq * V -> W -> W).
Context (P : list (xq * V) -> Prop) (m : Qc) (Hm : (0 < m)%Qc) (ip : interp).
Context (tf : pts xq V -> pts xq W -> xq -> V -> W -> res W) (post : W -> W).
Implicit Types s : pts xq V.
Implicit Types a : acc xq W.

(** sources on which the curve is queried *)
Definition src s : Prop := good s /\ equally_spaced (p_pts s) /\ coarse m (p_pts s) /\ P (p_pts s).

(** the transform computes [G] *)
Definition tf_ok : Prop := forall s pa k p, src s -> nth_error (p_pts s) k = Some p ->
  good pa -> p_interp pa = ip -> p_pts pa = spec G (firstn k (p_pts s)) ->
  tf s pa (fst p) (snd p) (lastv v_none (p_pts pa)) = Ok (G (firstn k (p_pts s)) p (lastv v_none (p_pts pa))).
Context (TF : tf_ok).
(** the same of one transform on the points [l] *)
Definition computes_on (t : pts xq W -> xq -> V -> W -> res W) (l : list (xq * V)) : Prop :=
  forall pa k p, nth_error l k = Some p -> good pa -> p_interp pa = ip -> p_pts pa = spec G (firstn k l) ->
  t pa (fst p) (snd p) (lastv v_none (p_pts pa)) = Ok (G (firstn k l) p (lastv v_none (p_pts pa))).
(** a curve that has the points [l] in this order *)
Record serves (c : crv xq V) (l : list (xq * V)) : Prop := {
  sv_dom : forall p, In p l -> i_contains (c_dom c) (fst p) = true;
  sv_y : forall p, In p l -> c_y c (fst p) = Ok (snd p);
  sv_next : forall k p lim, nth_error l k = Some p ->
    c_next c (fst p) (Some (Fin m)) lim = Ok (option_map fst (nth_error l (S k)))
}.

Record core (l : list (xq * V)) (k : nat) (pa : pts xq W) : Prop := {
  co_len : (k <= length l)%nat;
  co_pts : p_pts pa = spec G (firstn k l);
  co_good : good pa;
  co_force : p_force pa = true;
  co_interp : p_interp pa = ip
}.
Record state (l : list (xq * V)) a (k : nat) : Prop := {
  st_core : core l k (a_pts a);
  st_cur : a_cur a = option_map fst (last_opt (firstn k l));
  st_start : a_start a = option_map fst (head_opt (firstn k l))
}.
Definition upd_ok s a : Prop := PointsOps.idle (a_upd a) /\
  (u_dom (a_upd a) = None \/ u_dom (a_upd a) = Some (pts_domain (p_pts s))).
Definition inv s a : Prop := upd_ok s a /\ exists k, state (p_pts s) a k.

Lemma core_touch l k pa : core l k pa -> core l k (p_touch pa).
Proof. intros [L Q Gd F I]. split; auto. now apply good_touch. Qed.

Lemma last_firstn {A} (l : list A) k : (k < length l)%nat -> last_opt (firstn (S k) l) = nth_error l k.
Proof.
  intros L. destruct (nth_error l k) as [p|] eqn:E; [|apply nth_error_None in E; lia].
  rewrite (firstn_snoc l k p E). apply last_opt_app.
Qed.

Lemma accumulate_step t l a k p : ascending l -> equally_spaced l -> computes_on t l ->
  core l k (a_pts a) -> nth_error l k = Some p ->
  exists a', accumulate t a (fst p) (snd p) = (a', Ok tt) /\ core l (S k) (a_pts a') /\
    a_cur a' = a_cur a /\ a_start a' = a_start a /\ a_upd a' = a_upd a.
Proof.
  intros A ES HT C N.
  assert (Lk : (k < length l)%nat) by (apply nth_error_Some; congruence).
  destruct (asc_fin _ _ _ A N) as [q Q].
  apply core_touch in C. unfold accumulate. set (pa := p_touch (a_pts a)) in *.
  pose proof C as [L CP Gd F I].
  assert (D : p_dom pa = pts_domain (p_pts pa)) by (apply calm_dom, good_calm, Gd).
  assert (AS : ascending (spec G (firstn (S k) l))).
  { eapply ascending_xs; [symmetry; apply spec_xs|]. now apply ascending_firstn. }
  assert (EQS : equally_spaced (spec G (firstn (S k) l))).
  { eapply equally_xs2; [symmetry; apply spec_xs|]. now apply equally_firstn. }
  pose proof (firstn_snoc _ _ _ N) as FS. rewrite FS, spec_snoc, <- CP in AS, EQS.
  assert (LY : (if i_is_empty (p_dom pa) then Ok v_none
         else if negb (n_ltb (i_end (p_dom pa)) (fst p)) then Err EAssert
         else p_y pa (i_end (p_dom pa))) = Ok (lastv v_none (p_pts pa))).
  { rewrite D. destruct (p_pts pa) as [|r rs] eqn:E; [reflexivity|].
    assert (NE : i_is_empty (pts_domain (r :: rs)) = false).
    { destruct (i_is_empty (pts_domain (r :: rs))) eqn:X; auto. apply pts_domain_empty_iff in X; [discriminate|].
      rewrite <- E. apply Gd. }
    rewrite NE. destruct (last_opt_cons r rs) as [z Z].
    assert (EN : i_end (pts_domain (r :: rs)) = fst z).
    { unfold pts_domain. cbn [head_opt]. rewrite Z. reflexivity. }
    rewrite EN. unfold lastv. rewrite Z.
    assert (Lz : lt_x (fst z) (fst p)).
    { change (fst p) with (fst (fst p, G (firstn k l) p (lastv v_none (r :: rs)))).
      apply ascending_app_iff in AS. apply AS; [now apply last_opt_in|now left]. }
    unfold lt_x in Lz. cbn [n_ltb XQ]. rewrite Lz. cbn [negb].
    destruct (ascending_fin (p_pts pa) z) as (qz & wz & ->); [apply Gd|rewrite E; now apply last_opt_in|].
    cbn [fst snd]. apply p_y_knot; auto. rewrite E. now apply last_opt_in. }
  rewrite LY. rewrite (HT pa k p N Gd I CP).
  assert (FP : fst p = Fin q) by (rewrite Q; reflexivity). rewrite FP in *.
  destruct (p_append_next pa q _ Gd F AS EQS) as (pa' & evs & X & PP & G' & F' & I').
  rewrite X. eexists. split; [reflexivity|]. cbn. split; [|auto].
  split; auto; [|congruence]. rewrite PP, FS, spec_snoc, CP, FP. reflexivity.
Qed.

Lemma src_next s k p lim : src s -> nth_error (p_pts s) k = Some p ->
  p_x_next s (fst p) (Some (Fin m)) lim = Ok (option_map fst (nth_error (p_pts s) (S k))).
Proof.
  intros (GS & _ & C & _) N. destruct (asc_fin _ _ _ (proj1 GS) N) as [q Q]. rewrite Q. cbn [fst].
  eapply knot_next; eauto. rewrite Q in N. exact N.
Qed.

Lemma resolve_self : resolve_min_step (Some (Fin m)) (Some (Fin m)) = Some (Fin m).
Proof. cbn [resolve_min_step]. unfold n_max. match goal with |- context [if ?b then _ else _] => destruct b end; reflexivity. Qed.

(** stepping from the last accumulated point reaches the source's next point *)
Lemma acc_step_next c l a k p lim : ascending l -> serves c l -> core l (S k) (a_pts a) -> nth_error l k = Some p ->
  acc_next c (Some (Fin m)) a (fst p) (Some (Fin m)) lim = Ok (option_map fst (nth_error l (S k))).
Proof.
  intros A SV C N. unfold acc_next. rewrite resolve_self.
  pose proof C as [L CP Gd F I].
  destruct (asc_fin _ _ _ A N) as [q Q].
  destruct (p_x_next_spec (a_pts a) (fst p) m lim Gd) as (y & E & LF); [rewrite Q; discriminate|].
  rewrite E. cbn [rbind]. destruct y as [y|].
  - exfalso. destruct LF as ((v & In1) & Le & _). rewrite Q in Le. cbn [fst xq_add] in Le.
    assert (LX : le_x y (fst p)).
    { assert (LO : exists w, last_opt (p_pts (a_pts a)) = Some (fst p, w)).
      { rewrite CP, (firstn_snoc _ _ _ N), spec_snoc, last_opt_app. eauto. }
      destruct LO as [w LO]. apply (ascending_last_ge _ _ _ (proj1 Gd) LO) in In1. exact In1. }
    destruct (ascending_fin _ _ (proj1 Gd) In1) as (r & u & X). injection X as -> ->.
    rewrite Q in LX. cbn [fst] in LX. apply le_x_fin in LX, Le. qc_lra.
  - cbn [py_or]. now apply (sv_next _ _ SV).
Qed.

Lemma acc_dom_ok s a k : good s -> upd_ok s a -> state (p_pts s) a k ->
  exists a', acc_dom (p_dom s) a = (a', pts_domain (p_pts s)) /\ upd_ok s a' /\ state (p_pts s) a' k.
Proof.
  intros GS (Id & D) [C Q R]. rewrite (calm_dom s) by apply good_calm, GS.
  unfold acc_dom. destruct (u_dom (a_upd a)) as [d|] eqn:E.
  - exists a. destruct D as [D|D]; [discriminate|]. injection D as ->. split; [reflexivity|].
    split; [split; auto|split; auto].
  - eexists. split; [reflexivity|]. split; [split; [exact Id|now right]|split; auto].
Qed.

Lemma state0 l a : p_pts (a_pts a) = [] -> good (a_pts a) -> p_force (a_pts a) = true -> p_interp (a_pts a) = ip ->
  a_cur a = None -> a_start a = None -> state l a 0.
Proof. intros. split; auto. split; auto. lia. Qed.

Lemma reset_scan_ok l l' a k : state l a k -> exists a', reset_scan a = (a', Ok tt) /\ state l' a' 0 /\ a_upd a' = a_upd a.
Proof.
  intros [[L CP Gd F I] _ _]. unfold reset_scan.
  destruct (p_reset (a_pts a) None) as [[p evs] r] eqn:E.
  destruct (p_reset_none _ _ _ _ Gd E) as (-> & PP & G' & F' & I' & _).
  eexists. split; [reflexivity|]. split; [|reflexivity]. apply state0; cbn; auto; congruence.
Qed.

Lemma span_dom s q : good s -> i_contains (p_dom s) (Fin q) = true <-> span (p_pts s) q.
Proof. intros GS. apply span_contains, good_calm, GS. Qed.
Lemma dom_point s p : good s -> In p (p_pts s) -> i_contains (p_dom s) (fst p) = true.
Proof.
  intros GS H. destruct (ascending_fin _ _ (proj1 GS) H) as (q & v & ->). apply span_dom; auto.
  exists q, q, v, v. repeat split; auto; apply Qcle_refl.
Qed.
Lemma src_y s p : good s -> In p (p_pts s) -> p_y s (fst p) = Ok (snd p).
Proof.
  intros GS H. destruct (ascending_fin _ _ (proj1 GS) H) as (q & v & ->). now apply p_y_knot.
Qed.
Lemma span_nonempty l q : span (V := V) l q -> l <> [].
Proof. intros (a & _ & va & _ & H & _) ->. destruct H. Qed.

Notation own := (Some (Fin m)).

Lemma init_ok s a x k : src s -> upd_ok s a -> state (p_pts s) a k -> p_pts s <> [] ->
  exists a' p, init_scan (p_crv s) own a x = (a', Ok (Some (fst p))) /\ head_opt (p_pts s) = Some p /\
    upd_ok s a' /\ state (p_pts s) a' k.
Proof.
  intros (GS & _) U St NE. pose proof (proj1 GS) as A.
  destruct (head_opt_some _ NE) as [p Hp]. destruct (last_opt_some _ NE) as [z Hz].
  destruct (acc_dom_ok s a k GS U St) as (a' & E & U' & St').
  exists a', p. split; [|auto]. unfold init_scan. cbn [c_dom c_next p_crv].
  rewrite E. assert (D : p_dom s = pts_domain (p_pts s)) by (apply calm_dom, good_calm, GS).
  assert (NE' : i_is_empty (p_dom s) = false).
  { destruct (i_is_empty (p_dom s)) eqn:X; auto. rewrite D in X. apply pts_domain_empty_iff in X; auto. congruence. }
  rewrite NE'. pose proof (ends_ok _ _ _ A Hp Hz) as EO.
  destruct (ascending_fin _ p A (head_opt_in _ _ Hp)) as (q & v & EP).
  assert (SD : i_start (p_dom s) = fst p) by (rewrite D, EO; reflexivity).
  assert (NI : i_is_negative_infinite (p_dom s) = false).
  { rewrite D, EO, EP. reflexivity. }
  rewrite NI. cbn [orb]. rewrite SD. rewrite <- D. rewrite dom_point by (auto using head_opt_in). reflexivity.
Qed.

Definition reaches (l : list (xq * V)) (q : Qc) (k : nat) : Prop := exists z, last_opt (firstn k l) = Some z /\ le_x (Fin q) (fst z).

Lemma loop_gen c t l (UP : upd xq -> Prop) init x q : ascending l -> equally_spaced l -> serves c l -> computes_on t l ->
  span l q -> forall fuel a k, UP (a_upd a) -> state l a k -> (length l - k < fuel)%nat ->
  (k = 0%nat -> exists a' p, init a x = (a', Ok (Some (fst p))) /\ head_opt l = Some p /\ UP (a_upd a') /\ state l a' 0) ->
  exists a' k', scan_loop fuel c own init t (Fin q) x a = (a', Ok tt) /\ UP (a_upd a') /\ state l a' k' /\ reaches l q k'.
Proof.
  intros A ES SV CT SP.
  induction fuel as [|f IH]; intros a k U St Lf HI; [lia|].
  cbn [scan_loop]. pose proof (st_cur _ _ _ St) as CUR.
  pose proof (co_len _ _ _ (st_core _ _ _ St)) as Lk.
  assert (STEP : forall a1 p, nth_error l k = Some p -> UP (a_upd a1) -> core l k (a_pts a1) ->
    a_start a1 = option_map fst (head_opt (firstn (S k) l)) ->
    exists a' k', (let '(a2, r) := accumulate t a1 (fst p) (snd p) in
                  match r with
                  | Err e => (a2, Err e)
                  | Ok _ => scan_loop f c own init t (Fin q) x (set_cur a2 (Some (fst p)))
                  end) = (a', Ok tt) /\ UP (a_upd a') /\ state l a' k' /\ reaches l q k').
  { intros a1 p N U1 C1 S1. destruct (accumulate_step t l a1 k p A ES CT C1 N) as (a2 & E & C2 & _ & S2 & U2).
    rewrite E. assert (Lk' : (k < length l)%nat) by (apply nth_error_Some; congruence).
    apply (IH _ (S k)); [| |lia|discriminate].
    - cbn. now rewrite U2.
    - split; [exact C2| |].
      + rewrite last_firstn by auto. rewrite N. reflexivity.
      + cbn [set_cur a_start]. congruence. }
  destruct k as [|j].
  - cbn [firstn last_opt rev head_opt option_map] in CUR. rewrite CUR. cbn [option_map].
    destruct (HI eq_refl) as (a1 & p & E & Hp & U1 & St1).
    rewrite E. cbn [a_cur set_start]. rewrite (st_cur _ _ _ St1). cbn [firstn last_opt rev head_opt option_map].
    rewrite (sv_dom _ _ SV) by auto using head_opt_in. cbn [negb].
    rewrite (sv_y _ _ SV p) by auto using head_opt_in.
    apply STEP.
    + destruct l; [discriminate|]. exact Hp.
    + exact U1.
    + apply St1.
    + cbn. destruct l; [discriminate|]. cbn. now injection Hp as ->.
  - rewrite last_firstn in CUR by lia. destruct (nth_error l j) as [z|] eqn:NZ; [|apply nth_error_None in NZ; lia].
    cbn [option_map] in CUR. rewrite CUR.
    destruct (asc_fin _ _ _ A NZ) as [qz QZ].
    destruct (n_ltb (fst z) (Fin q)) eqn:CL.
    + rewrite (acc_step_next c l a j z _ A SV (st_core _ _ _ St) NZ).
      destruct (nth_error l (S j)) as [p|] eqn:N.
      2: { exfalso. apply nth_error_None in N. destruct SP as (b & d & vb & vc & _ & I2 & _ & L2).
           apply In_nth_error in I2. destruct I2 as [i I2].
           assert (Li : (i < length l)%nat) by (apply nth_error_Some; congruence).
           assert (LX : le_x (Fin d) (fst z)).
           { destruct (Nat.eq_dec i j) as [->|Ne].
             - rewrite NZ in I2. injection I2 as ->. apply le_x_refl. discriminate.
             - pose proof (asc_nth _ _ _ _ _ A I2 NZ ltac:(lia)) as X. rewrite QZ in *. cbn [fst] in *.
               apply lt_x_fin in X. apply le_x_fin. qc_lra. }
           rewrite QZ in *. cbn [fst] in *. change (lt_x (Fin qz) (Fin q)) in CL. apply lt_x_fin in CL. apply le_x_fin in LX. qc_lra. }
      cbn [option_map]. assert (Ip : In p l) by (eapply nth_error_In; eauto).
      rewrite (sv_dom _ _ SV) by auto. cbn [negb]. rewrite CUR.
      pose proof (asc_nth _ _ _ _ _ A NZ N ltac:(lia)) as LT.
      assert (NL : n_leb (fst p) (fst z) = false).
      { destruct (asc_fin _ _ _ A N) as [qp QP]. rewrite QP, QZ in *. cbn [fst] in *. apply lt_x_fin in LT.
        destruct (n_leb (Fin qp) (Fin qz)) eqn:X; auto. change (le_x (Fin qp) (Fin qz)) in X. apply le_x_fin in X. exfalso. qc_lra. }
      rewrite NL, (sv_y _ _ SV p Ip). apply STEP; auto; [apply St|].
      rewrite (st_start _ _ _ St). destruct l; reflexivity.
    + exists a, (S j). split; [reflexivity|]. split; [exact U|]. split; [exact St|].
      exists z. rewrite last_firstn by lia. split; [exact NZ|]. rewrite QZ in *. cbn [fst] in *.
      apply le_x_fin. destruct (Qclt_le_dec qz q) as [X|X]; auto.
      apply lt_x_fin in X. unfold lt_x in X. cbn in CL, X. congruence.
Qed.

Lemma src_serves s : src s -> serves (p_crv s) (p_pts s).
Proof.
  intros HS. pose proof HS as (GS & _). split.
  - intros p Ip. now apply dom_point.
  - intros p Ip. now apply src_y.
  - intros k p lim N. now apply src_next.
Qed.
Lemma loop_ok s q : src s -> span (p_pts s) q -> forall fuel a k x, upd_ok s a -> state (p_pts s) a k ->
  (length (p_pts s) - k < fuel)%nat ->
  exists a' k', scan_loop fuel (p_crv s) own (init_scan (p_crv s) own) (tf s) (Fin q) x a = (a', Ok tt) /\
    upd_ok s a' /\ state (p_pts s) a' k' /\ reaches (p_pts s) q k'.
Proof.
  intros HS SP fuel a k x U St L. pose proof HS as (GS & ES & _).
  apply (loop_gen (p_crv s) (tf s) (p_pts s) (fun u => PointsOps.idle u /\ (u_dom u = None \/ u_dom u = Some (pts_domain (p_pts s))))
    (init_scan (p_crv s) own) x q) with (fuel := fuel) (k := k); auto.
  - apply GS.
  - now apply src_serves.
  - intros pa j p N Gd I CP. now apply TF.
  - intros ->. apply (init_ok s a x 0); auto. now apply span_nonempty with q.
Qed.

Lemma reached_value l a k q v : ascending l -> state l a k -> reaches l q k ->
  value ip (p_pts (a_pts a)) q v -> value ip (spec G l) q v.
Proof.
  intros A [[L CP Gd F I] _ _] (z & Z & Lz) H.
  destruct (spec_split G l k) as [t E]. rewrite E, <- CP.
  assert (XZ : exists w, last_opt (p_pts (a_pts a)) = Some (fst z, w)).
  { rewrite CP. destruct k as [|k]; [discriminate|].
    destruct (nth_error l k) as [p|] eqn:N; [|apply nth_error_None in N; lia].
    rewrite (firstn_snoc _ _ _ N) in *. rewrite last_opt_app in Z. injection Z as ->.
    rewrite spec_snoc, last_opt_app. eauto. }
  destruct XZ as [w XZ].
  apply value_head with (t := []) (z := (fst z, w)); auto.
  - rewrite app_nil_r. apply Gd.
  - rewrite CP, <- E. eapply ascending_xs; [symmetry; apply spec_xs|exact A].
  - now rewrite app_nil_r.
Qed.

(** ** Queries *)
Context (PN : post v_none = v_none).
Notation query fuel s a x := (acc_y fuel (p_crv s) own (tf s) post a x).

Lemma query_out fuel s a x : src s -> inv s a -> i_contains (p_dom s) x = false ->
  exists a', query fuel s a x = (a', Ok v_none) /\ inv s a'.
Proof.
  intros (GS & _) (U & k & St) E. destruct (acc_dom_ok s a k GS U St) as (a' & D & U' & St').
  exists a'. unfold acc_y. cbn [c_dom p_crv]. rewrite E. cbn [negb]. rewrite D.
  rewrite (calm_dom s) in E by apply good_calm, GS. rewrite E. split; [reflexivity|]. split; eauto.
Qed.

Theorem query_ok fuel s a q : src s -> inv s a -> (length (p_pts s) < fuel)%nat ->
  exists a' v, query fuel s a (Fin q) = (a', Ok (post v)) /\ value ip (spec G (p_pts s)) q v /\ inv s a'.
Proof.
  intros HS HI Lf. pose proof HS as (GS & _). pose proof (proj1 GS) as A.
  destruct (i_contains (p_dom s) (Fin q)) eqn:IC.
  - apply span_dom in IC as SP; auto. destruct HI as (U & k & St).
    unfold acc_y. cbn [c_dom p_crv]. rewrite IC. cbn [negb].
    unfold scan, no_offset.
    assert (NR : (match a_start a, Some (Fin q) with
        | Some s0, Some x => if n_ltb x s0 then reset_scan a else (a, Ok tt)
        | Some _, None => (a, Err EType)
        | None, _ => (a, Ok tt)
        end) = (a, Ok tt)).
    { rewrite (st_start _ _ _ St). destruct (head_opt (firstn k (p_pts s))) as [p|] eqn:Hp; [|reflexivity]. cbn [option_map].
      assert (Hp' : head_opt (p_pts s) = Some p) by (destruct k, (p_pts s); try discriminate; exact Hp).
      destruct SP as (b & c & vb & vc & I1 & _ & L1 & _).
      pose proof (ascending_head_le _ _ _ A Hp' I1) as LE. cbn [fst] in LE.
      destruct (ascending_fin _ p A (head_opt_in _ _ Hp')) as (r & v & ->). cbn [fst] in *. apply le_x_fin in LE.
      destruct (n_ltb (Fin q) (Fin r)) eqn:X; [|reflexivity]. change (lt_x (Fin q) (Fin r)) in X. apply lt_x_fin in X.
      exfalso. qc_lra. }
    rewrite NR. destruct (loop_ok s q HS SP fuel a k (Some (Fin q)) U St) as (a' & k' & E & U' & St' & R); [lia|].
    rewrite E. destruct (p_y_value (a_pts a') q) as (v & Y & VV); [auto|apply St'|].
    rewrite Y. cbn [rbind]. exists a', v. split; [reflexivity|].
    split; [|split; eauto]. rewrite (co_interp _ _ _ (st_core _ _ _ St')) in VV. eapply reached_value; eauto.
  - destruct (query_out fuel s a (Fin q) HS HI IC) as (a' & E & I'). exists a', v_none. rewrite PN.
    split; [exact E|]. split; [|exact I']. apply value_none.
    + intros (b & c & vb & vc & I1 & I2 & L1 & L2).
      apply (in_map fst) in I1, I2. rewrite spec_xs in I1, I2. apply in_map_iff in I1, I2.
      destruct I1 as ([x1 w1] & E1 & I1), I2 as ([x2 w2] & E2 & I2). cbn [fst] in *. subst.
      assert (SP : span (p_pts s) q) by (exists b, c, w1, w2; auto). apply span_dom in SP; auto. congruence.
    + eapply ascending_xs; [symmetry; apply spec_xs|exact A].
Qed.

(** ** Source updates *)
Lemma p_reset_noop (pa : pts xq W) (d : ival xq) : good pa -> iok d -> (forall p, In p (p_pts pa) -> ~ imem d (fst p)) ->
  exists pa' evs, p_reset pa (Some d) = (pa', evs, Ok tt) /\ p_pts pa' = p_pts pa /\ good pa' /\
    p_force pa' = p_force pa /\ p_interp pa' = p_interp pa.
Proof.
  intros Gd K H. destruct (p_reset pa (Some d)) as [[pa' evs] r] eqn:E.
  assert (FA : filter (outside d) (p_pts pa) = p_pts pa).
  { apply filter_all. intros p Ip. unfold outside, inside. destruct (i_contains d (fst p)) eqn:C; auto.
    apply contains_iff in C; auto; [destruct (H _ Ip C)|]. eapply nn_point; eauto. apply Gd. }
  destruct (p_reset_some _ _ _ _ _ Gd K E) as [[->| ->] -> -> _| -> F S _|head mid tail b Hp Hm' Hn F _ _].
  - exists pa, []. auto.
  - exists (p_touch pa), []. split; [reflexivity|]. split; [reflexivity|]. split; [now apply good_touch|]. auto.
  - exists pa', evs. split; [reflexivity|]. rewrite (so_pts _ _ _ _ _ S). split; [congruence|].
    split; [|split; apply S]. apply good_calm. split; [apply S|]. intros _. rewrite (so_pts _ _ _ _ _ S).
    exists 0%Qc, 1%Qc. split; [reflexivity|]. intros [|i] p X; discriminate.
  - exfalso. rewrite FA, Hp in F. apply (f_equal (@length _)) in F. rewrite !app_length in F.
    destruct mid; [congruence|]. cbn in F. lia.
Qed.

Lemma before_trans D d x y : i_start D = Fin d -> le_x (Fin x) (Fin y) -> before D (Fin y) -> before D (Fin x).
Proof.
  intros S L B. unfold before in *. rewrite S in *. apply le_x_fin in L. destruct B as [B|[E O]].
  - apply lt_x_fin in B. left. apply lt_x_fin. qc_lra.
  - injection E as <-. destruct (Qclt_le_dec x y) as [X|X]; [left; now apply lt_x_fin|].
    right. split; auto. f_equal. now apply Qcle_antisym.
Qed.

Lemma update_ok D q : i_start D = Fin q -> iok (update_interval D) /\ i_is_empty (update_interval D) = false.
Proof.
  intros S. assert (K : iok (update_interval D)) by (unfold update_interval; split; cbn; rewrite ?S; discriminate).
  split; [exact K|]. unfold update_interval. rewrite S. destruct (i_so D); reflexivity.
Qed.

Lemma keep_state l l' a k D : state l a k -> keeps D l l' -> (forall p, In p (firstn k l) -> before D (fst p)) -> state l' a k.
Proof.
  intros [[L CP Gd F I] Q R] K B. pose proof (K k L B) as E.
  assert (L' : (k <= length l')%nat).
  { apply (f_equal (@length _)) in E. rewrite !firstn_length in E. lia. }
  split; [split; auto; congruence| |]; rewrite E; auto.
Qed.

(** the points that survive the begin callback *)
Lemma settle_reset l l' a k D q : state l a k -> ascending l -> i_start D = Fin q -> keeps D l l' ->
  exists a' k', (match a_cur a with
    | Some cur =>
        if (n_ltb (i_start D) cur) || ((n_eqb (i_start D) cur) && negb (i_so D)) then reset_scan a else (a, Ok tt)
    | None => (a, Ok tt)
    end) = (a', Ok tt) /\ state l' a' k' /\ a_upd a' = a_upd a /\ (forall p, In p (firstn k' l') -> before D (fst p)).
Proof.
  intros St A S K. rewrite (st_cur _ _ _ St).
  destruct (last_opt (firstn k l)) as [z|] eqn:Z; cbn [option_map].
  - assert (Iz : In z l).
    { apply last_opt_in in Z. rewrite <- (firstn_skipn k l). apply in_or_app. now left. }
    destruct (ascending_fin _ _ A Iz) as (r & v & ->). cbn [fst]. rewrite S.
    destruct (n_ltb (Fin q) (Fin r) || n_eqb (Fin q) (Fin r) && negb (i_so D)) eqn:C.
    + destruct (reset_scan_ok l l' a k St) as (a' & E & St' & U). exists a', 0%nat. split; [exact E|]. split; [exact St'|].
      split; [exact U|]. intros p [].
    + apply orb_false_iff in C. destruct C as [C1 C2].
      assert (B : before D (Fin r)).
      { unfold before. rewrite S. destruct (Qclt_le_dec r q) as [X|X]; [left; now apply lt_x_fin|].
        right. destruct (Qclt_le_dec q r) as [Y|Y].
        { apply lt_x_fin in Y. unfold lt_x in Y. cbn in C1, Y. congruence. }
        assert (E : r = q) by now apply Qcle_antisym. subst r. split; [reflexivity|].
        destruct (i_so D); auto. rewrite andb_true_r in C2. exfalso. cbn [n_eqb XQ] in C2.
        rewrite xq_eqb_refl in C2 by discriminate. discriminate. }
      assert (BA : forall p, In p (firstn k l) -> before D (fst p)).
      { intros p Ip. pose proof (ascending_last_ge _ _ _ (ascending_firstn l k A) Z Ip) as LE.
        destruct (ascending_fin _ _ (ascending_firstn l k A) Ip) as (t & w & ->). cbn [fst] in *.
        eapply before_trans; eauto. }
      exists a, k. split; [reflexivity|]. split; [eapply keep_state; eauto|]. split; [reflexivity|].
      pose proof (K k (co_len _ _ _ (st_core _ _ _ St)) BA) as E. now rewrite E.
  - exists a, k. split; [reflexivity|].
    assert (N : firstn k l = []) by now apply last_opt_none in Z.
    assert (BA : forall p, In p (firstn k l) -> before D (fst p)) by (rewrite N; intros p []).
    split; [eapply keep_state; eauto|]. split; [reflexivity|].
    pose proof (K k (co_len _ _ _ (st_core _ _ _ St)) BA) as E. now rewrite E.
Qed.

Notation sent := (map (fun e : ev xq => match e with EvBegin D => EvBegin (update_interval D) | EvEnd D => EvEnd (update_interval D) end)).
Lemma events_gen l l' a k D q : ascending l -> ascending l' -> state l a k -> PointsOps.idle (a_upd a) ->
  i_start D = Fin q -> keeps D l l' ->
  exists a', acc_events a [EvBegin D; EvEnd D] = (a', sent [EvBegin D; EvEnd D], Ok tt) /\
    PointsOps.idle (a_upd a') /\ u_dom (a_upd a') = None /\ exists k', state l' a' k'.
Proof.
  intros A A' St U S K.
  destruct (update_ok D q S) as [KU NU].
  set (d := update_interval D) in *.
  assert (Sd : i_start d = Fin q) by exact S.
  assert (Kd : keeps d l l') by exact K.
  destruct (settle_reset _ l' a k d q St A Sd Kd) as (a1 & k1 & E1 & St1 & U1 & B1).
  assert (X2 : exists a2 k2, (match a_cur a1, a_start a1 with
        | Some cur, Some st => if n_ltb cur st then reset_scan a1 else (a1, Ok tt)
        | _, _ => (a1, Ok tt)
        end) = (a2, Ok tt) /\ state l' a2 k2 /\ a_upd a2 = a_upd a1 /\ (forall p, In p (firstn k2 l') -> before d (fst p))).
  { destruct (a_cur a1) as [c|]; [destruct (a_start a1) as [t|]; [destruct (n_ltb c t)|]|]; try (exists a1, k1; split; [reflexivity|]; split; [exact St1|]; split; [reflexivity|exact B1]).
    destruct (reset_scan_ok _ l' a1 k1 St1) as (a2 & E & St' & U'). exists a2, 0%nat.
    split; [exact E|]. split; [exact St'|]. split; [exact U'|]. intros p []. }
  destruct X2 as (a2 & k2 & E2 & St2 & U2 & B2).
  destruct (p_reset_noop (a_pts a2) d) as (pa & evs & E3 & P3 & G3 & F3 & I3).
  { apply St2. } { exact KU. }
  { intros p Ip. rewrite (co_pts _ _ _ (st_core _ _ _ St2)) in Ip.
    apply (in_map fst) in Ip. rewrite spec_xs in Ip. apply in_map_iff in Ip. destruct Ip as (r & Er & Ir).
    rewrite <- Er. apply before_not_mem; auto. eapply nn_point; [|exact Ir]. now apply ascending_firstn. }
  assert (BB : begin_scan_update a D = (set_aupd (set_apts a2 pa) (mkU d i_empty (u_dom (a_upd a))), [EvBegin d], Ok tt)).
  { unfold begin_scan_update. fold d. rewrite E1; cbv beta iota. rewrite E2; cbv beta iota. rewrite E3; cbv beta iota. cbn [a_upd set_apts]. rewrite U2, U1.
    rewrite begin_idle; auto. }
  cbn [acc_events]. rewrite BB. unfold end_scan_update. fold d. cbn [a_upd set_aupd].
  rewrite end_begun by auto. cbn [ev_end app map]. eexists. split; [reflexivity|].
  split; [split; reflexivity|]. split; [reflexivity|].
  exists k2. destruct St2 as [[L CP Gd F I] Q R]. split; cbn; auto. split; auto; congruence.
Qed.
Theorem events_ok s s' a evs : good s -> good s' -> inv s a -> announces evs (p_pts s) (p_pts s') ->
  exists a', acc_events a evs = (a', sent evs, Ok tt) /\ inv s' a'.
Proof.
  intros GS GS' (U & k & St) [[-> E]|(D & q & -> & KD & NE & S & K)].
  { exists a. split; [reflexivity|]. unfold inv, upd_ok. rewrite E. split; [exact U|]. now exists k. }
  destruct (events_gen (p_pts s) (p_pts s') a k D q (proj1 GS) (proj1 GS') St (proj1 U) S K) as (a' & E & I & N & St').
  exists a'. split; [exact E|]. split; [split; [exact I|now left]|exact St'].
Qed.

(** ** Histories *)
(** A curve created over a source; then any queries, reads of the cached domain
    and source operations in any order, the curve receiving the source's
    notifications. *)
Inductive watched : pts xq V -> acc xq W -> Prop :=
| wa_new s : honest_history s -> watched s (acc_init ip true)
| wa_query fuel s a x a' r : watched s a -> src s -> (length (p_pts s) < fuel)%nat ->
    query fuel s a x = (a', r) -> watched s a'
| wa_domain s a a' d : watched s a -> acc_dom (p_dom s) a = (a', d) -> watched s a'
| wa_read s a : watched s a -> watched (p_touch s) a
| wa_op s a o s' evs a' out r : watched s a -> op_ok o -> run_op s o = (s', evs, Ok tt) ->
    (p_uniform s' = true -> equally_spaced (p_pts s')) -> acc_events a evs = (a', out, r) -> watched s' a'
| wa_refused s a o s' e : watched s a -> op_ok o -> run_op s o = (s', [], Err e) -> watched s' a.

Lemma acc_init_eq : acc_init (W := W) ip true = mkA None None (a_pts (acc_init ip true)) upd_init /\
  p_pts (a_pts (acc_init (T := xq) (W := W) ip true)) = [] /\ good (a_pts (acc_init (T := xq) (W := W) ip true)) /\
  p_force (a_pts (acc_init (T := xq) (W := W) ip true)) = true /\ p_interp (a_pts (acc_init (T := xq) (W := W) ip true)) = ip.
Proof.
  unfold acc_init, p_init.
  destruct (p_set_nil (p_empty ip true : pts xq W) (empty_calm ip true)) as (s' & E & S & Q).
  rewrite E. cbn [fst a_pts]. split; [reflexivity|]. split; [apply S|].
  split; [|split; apply S]. apply good_calm. split; [apply S|]. intros _. rewrite (so_pts _ _ _ _ _ S).
  exists 0%Qc, 1%Qc. split; [reflexivity|]. intros [|i] p X; discriminate.
Qed.

Lemma inv_init s : inv s (acc_init ip true).
Proof.
  destruct acc_init_eq as (_ & E2 & E3 & E4 & E5).
  split; [split; [split; reflexivity|now left]|]. exists 0%nat. apply state0; auto.
Qed.

Lemma dom_fin s x : good s -> i_contains (p_dom s) x = true -> exists q, x = Fin q.
Proof.
  intros GS IC. destruct x as [q| | |]; [now exists q| | |]; exfalso; rewrite (calm_dom s) in IC by apply good_calm, GS.
  3: { unfold i_contains, i_contains_gen in IC. apply andb_prop in IC. destruct IC as [IC _].
       apply andb_prop in IC. destruct IC as [_ IC]. unfold above_start in IC.
       destruct (pts_domain (p_pts s)) as [b c [|] eo]; destruct b; discriminate. }
  all: apply contains_iff in IC; [|apply iok_pts_domain, GS|discriminate]; unfold pts_domain in IC;
    destruct (head_opt (p_pts s)) as [b|] eqn:B; [destruct (last_opt (p_pts s)) as [z|] eqn:Z|];
    destruct IC as [I1 I2]; cbn in I1, I2; try discriminate.
  - destruct (ascending_fin _ _ (proj1 GS) (last_opt_in _ _ Z)) as (r1 & v & ->). discriminate.
  - destruct (ascending_fin _ _ (proj1 GS) (head_opt_in _ _ B)) as (r1 & v & ->). discriminate.
Qed.

Lemma query_inv fuel s a x a' r : src s -> inv s a -> (length (p_pts s) < fuel)%nat -> query fuel s a x = (a', r) -> inv s a'.
Proof.
  intros HS HI L E. destruct (i_contains (p_dom s) x) eqn:IC.
  - destruct (dom_fin s x (proj1 HS) IC) as [q ->].
    destruct (query_ok fuel s a q HS HI L) as (a1 & v & E1 & _ & I1). rewrite E in E1. now injection E1 as -> _.
  - destruct (query_out fuel s a x HS HI IC) as (a1 & E1 & I1). rewrite E in E1. now injection E1 as -> _.
Qed.

Theorem watched_inv s a : watched s a -> good s /\ inv s a.
Proof.
  induction 1 as [s H|fuel s a x a' r _ [GS HI] HS L E|s a a' d _ [GS HI] E|s a _ [GS HI]|s a o s' evs a' out r _ [GS HI] O R T E|s a o s' e _ [GS HI] O R].
  - split; [now apply honest_history_good|apply inv_init].
  - split; [exact GS|]. eapply query_inv; eauto.
  - split; [exact GS|]. destruct HI as (U & k & St). destruct (acc_dom_ok s a k GS U St) as (a1 & E1 & U1 & St1).
    rewrite E in E1. injection E1 as -> _. split; eauto.
  - split; [now apply good_touch|exact HI].
  - assert (GS' : good s').
    { apply good_calm. split; [eapply step_calm; eauto|]. exact T. }
    split; [exact GS'|]. destruct (events_ok s s' a evs GS GS' HI (op_announces s o s' evs GS O R)) as (a1 & E1 & I1).
    rewrite E in E1. now injection E1 as -> _ _.
  - destruct (refused_same s o s' e GS O R) as [->| ->]; [auto|]. split; [now apply good_touch|exact HI].
Qed.

(** Whatever happened before, the value is the specified one. *)
Theorem watched_value fuel s a q : watched s a -> src s -> (length (p_pts s) < fuel)%nat ->
  exists a' v, query fuel s a (Fin q) = (a', Ok (post v)) /\ value ip (spec G (p_pts s)) q v.
Proof.
  intros H HS L. destruct (watched_inv s a H) as [_ HI].
  destruct (query_ok fuel s a q HS HI L) as (a' & v & E & VV & _). eauto.
Qed.
Theorem watched_same fuel fuel' s a a' q : watched s a -> watched s a' -> src s ->
  (length (p_pts s) < fuel)%nat -> (length (p_pts s) < fuel')%nat ->
  snd (query fuel s a (Fin q)) = snd (query fuel' s a' (Fin q)).
Proof.
  intros H H' HS L L'. destruct (watched_value fuel s a q H HS L) as (a1 & v & E & X).
  destruct (watched_value fuel' s a' q H' HS L') as (a2 & w & E' & X'). rewrite E, E'. cbn. do 2 f_equal.
  eapply value_unique; eauto. eapply ascending_xs; [symmetry; apply spec_xs|]. apply HS.
Qed.
Theorem watched_knot fuel s a k p : watched s a -> src s -> (length (p_pts s) < fuel)%nat -> nth_error (p_pts s) k = Some p ->
  snd (query fuel s a (fst p)) = Ok (post (G (firstn k (p_pts s)) p (lastv v_none (spec G (firstn k (p_pts s)))))).
Proof.
  intros H HS L N. destruct (asc_fin _ _ _ (proj1 (proj1 HS)) N) as [q Q].
  destruct (watched_value fuel s a q H HS L) as (a' & v & E & X). rewrite Q. cbn [fst]. rewrite E. cbn. do 2 f_equal.
  eapply value_unique; [|exact X|].
  - eapply ascending_xs; [symmetry; apply spec_xs|]. apply HS.
  - apply val_knot. apply (spec_nth G) in N. rewrite Q in N. cbn [fst] in N. eapply nth_error_In. rewrite <- Q in *. exact N.
Qed.

(** The curve announces to its own observers everything from the start of the
    source's change. *)
Theorem watched_events s a o s' evs : watched s a -> op_ok o -> run_op s o = (s', evs, Ok tt) ->
  (p_uniform s' = true -> equally_spaced (p_pts s')) ->
  exists a', acc_events a evs =
      (a', map (fun e => match e with EvBegin D => EvBegin (update_interval D) | EvEnd D => EvEnd (update_interval D) end) evs, Ok tt) /\
    watched s' a'.
Proof.
  intros H O R T. destruct (watched_inv s a H) as [GS HI].
  assert (GS' : good s') by (apply good_calm; split; [eapply step_calm; eauto|exact T]).
  destruct (events_ok s s' a evs GS GS' HI (op_announces s o s' evs GS O R)) as (a1 & E1 & I1).
  exists a1. split; [exact E1|]. eapply wa_op; eauto.
Qed.

(** Stepping forward is stepping in the source. *)
Theorem watched_next s a x ms lim : watched s a -> src s -> notnan x -> (ms <= m)%Qc ->
  acc_next (p_crv s) own a x (Some (Fin ms)) lim = p_x_next s x (Some (Fin m)) lim.
Proof.
  intros H HS N Lm. destruct (watched_inv s a H) as [GS (U & k & [[L CP Gd F I] _ _])].
  assert (RS : resolve_min_step own (Some (Fin ms)) = own).
  { cbn [resolve_min_step]. unfold n_max. destruct (n_gtb (Fin m) (Fin ms)) eqn:X; [reflexivity|].
    f_equal. f_equal. apply Qcle_antisym; auto. destruct (Qclt_le_dec ms m) as [Y|Y]; auto.
    apply lt_x_fin in Y. unfold lt_x in Y. unfold n_gtb in X. cbn in X, Y. congruence. }
  unfold acc_next. rewrite RS.
  destruct (p_x_next_spec (a_pts a) x m lim Gd N) as (y & E & LF). rewrite E. cbn [rbind].
  destruct (p_x_next_spec s x m lim GS N) as (y' & E' & LF'). rewrite E'.
  destruct y as [y|]; [|exact E'].
  assert (LY : least_from (p_pts s) (xq_add x (Fin m)) (Some y)).
  { destruct LF as ((w & Iy) & Ly & My).
    assert (XS : forall z, In z (map fst (p_pts (a_pts a))) <-> In z (map fst (firstn k (p_pts s)))).
    { intros z. now rewrite CP, spec_xs. }
    assert (Iy' : In y (map fst (firstn k (p_pts s)))) by (apply XS; apply (in_map fst) in Iy; exact Iy).
    apply in_map_iff in Iy'. destruct Iy' as ([y0 v] & Ey & Iv). cbn in Ey. subst y0.
    split; [exists v; rewrite <- (firstn_skipn k (p_pts s)); apply in_or_app; now left|]. split; [exact Ly|].
    intros z v' Iz Lz. rewrite <- (firstn_skipn k (p_pts s)) in Iz. apply in_app_or in Iz. destruct Iz as [Iz|Iz].
    - apply (in_map fst) in Iz. apply XS in Iz. apply in_map_iff in Iz. destruct Iz as ([z0 w'] & Ez & Iz). cbn in Ez. subst z0. eapply My; eauto.
    - pose proof (proj1 GS) as A. rewrite <- (firstn_skipn k (p_pts s)) in A. apply ascending_app_iff in A.
      destruct A as (A1 & A2 & A3). specialize (A3 _ _ Iv Iz). cbn in A3.
      destruct (ascending_fin _ _ A1 Iv) as (b & ? & Eb). destruct (ascending_fin _ _ A2 Iz) as (c & ? & Ec).
      injection Eb as -> _. injection Ec as -> _. apply lt_x_fin in A3. apply le_x_fin. qc_lra. }
  assert (EQ : y' = Some y).
  { eapply least_unique; [apply GS| |exact LF'|exact LY]. destruct x; cbn; congruence. }
  subst y'. unfold py_or. destruct (n_eqb y n_zero); [exact E'|reflexivity].
Qed.
(** Stepping backward is stepping in the source as long as the scan has come
    that far. *)
Theorem watched_prev s a x ms lim : watched s a -> src s -> notnan x -> (ms <= m)%Qc ->
  (forall cur, a_cur a = Some cur -> le_x x cur) ->
  acc_prev (p_crv s) own a x (Some (Fin ms)) lim = p_x_previous s x (Some (Fin m)) lim.
Proof.
  intros H HS N Lm Lc. destruct (watched_inv s a H) as [GS (U & k & [[L CP Gd F I] CU _])].
  assert (RS : resolve_min_step own (Some (Fin ms)) = own).
  { cbn [resolve_min_step]. unfold n_max. destruct (n_gtb (Fin m) (Fin ms)) eqn:X; [reflexivity|].
    f_equal. f_equal. apply Qcle_antisym; auto. destruct (Qclt_le_dec ms m) as [Y|Y]; auto.
    apply lt_x_fin in Y. unfold lt_x in Y. unfold n_gtb in X. cbn in X, Y. congruence. }
  unfold acc_prev. rewrite RS.
  destruct (p_x_previous_spec (a_pts a) x m lim Gd N) as (y & E & LF). rewrite E. cbn [rbind].
  destruct (p_x_previous_spec s x m lim GS N) as (y' & E' & LF'). rewrite E'.
  destruct y as [y|]; [|exact E'].
  assert (LY : greatest_upto (p_pts s) (xq_sub x (Fin m)) (Some y)).
  { destruct LF as ((w & Iy) & Ly & My).
    assert (XS : forall z, In z (map fst (p_pts (a_pts a))) <-> In z (map fst (firstn k (p_pts s)))).
    { intros z. now rewrite CP, spec_xs. }
    assert (Iy' : In y (map fst (firstn k (p_pts s)))) by (apply XS; apply (in_map fst) in Iy; exact Iy).
    apply in_map_iff in Iy'. destruct Iy' as ([y0 v] & Ey & Iv). cbn in Ey. subst y0.
    split; [exists v; rewrite <- (firstn_skipn k (p_pts s)); apply in_or_app; now left|]. split; [exact Ly|].
    intros z v' Iz Lz. rewrite <- (firstn_skipn k (p_pts s)) in Iz. apply in_app_or in Iz. destruct Iz as [Iz|Iz].
    - apply (in_map fst) in Iz. apply XS in Iz. apply in_map_iff in Iz. destruct Iz as ([z0 w'] & Ez & Iz). cbn in Ez. subst z0. eapply My; eauto.
    - exfalso. pose proof (proj1 GS) as A. rewrite <- (firstn_skipn k (p_pts s)) in A. apply ascending_app_iff in A.
      destruct A as (A1 & A2 & A3). destruct (last_opt (firstn k (p_pts s))) as [[c vc]|] eqn:EL.
      + specialize (Lc c ltac:(rewrite CU; reflexivity)). assert (Ic : In (c, vc) (firstn k (p_pts s))) by (apply last_opt_in; exact EL).
        specialize (A3 _ _ Ic Iz). cbn in A3.
        destruct (ascending_fin _ _ A1 Ic) as (b & ? & Eb). destruct (ascending_fin _ _ A2 Iz) as (e & ? & Ec).
        injection Eb as -> _. injection Ec as -> _. destruct x as [x| | |]; cbn in Lc, Lz, N; try discriminate; try (exact (N eq_refl)).
        apply le_x_fin in Lc. cbn in Lz. apply le_x_fin in Lz. apply lt_x_fin in A3. clear -Lc Lz A3 Hm. qc_lra.
      + destruct (firstn k (p_pts s)) as [|p r] using rev_ind; [exact Iv|]. rewrite last_opt_app in EL. discriminate. }
  assert (EQ : y' = Some y).
  { eapply greatest_unique; [apply GS| |exact LF'|exact LY]. destruct x; cbn; congruence. }
  subst y'. unfold py_or. destruct (n_eqb y n_zero); [exact E'|reflexivity].
Qed.
End Inv.
