(** What the readers of a TrendLine give. *)
From Coq Require Import List ZArith Bool Lia QArith Qcanon Lqa Sorting.Sorted.
From Verif Require Import Base Num NumFacts Interval Points Trend TrendGeo TrendCol TrendMore.
Import ListNotations.
Open Scope bool_scope.
Open Scope Qc_scope.

(** *** line_extended *)
Definition least (x : Qc) (l : list Qc) : Prop := In x l /\ forall c, In c l -> x <= c.
Definition greatest (x : Qc) (l : list Qc) : Prop := In x l /\ forall c, In c l -> c <= x.
(** The place of the [k]th of [n] crossings: the nearest place when there is
    none, counted from the end when [k] is negative. *)
Definition place (n : nat) (k : Z) (i : nat) : Prop :=
  (i < n)%nat /\
  ((0 <= k)%Z /\ (Z.of_nat i = k \/ (Z.of_nat n <= k)%Z /\ S i = n) \/
   (k < 0)%Z /\ (Z.of_nat i = (Z.of_nat n + k)%Z \/ (Z.of_nat n + k < 0)%Z /\ i = 0%nat)).
(** The crossing asked for and the one after it. *)
Definition aims (cs : list qpt) (k : option Z) (c nx : option qpt) : Prop :=
  match k with
  | None => c = None /\ nx = None
  | Some k => cs = [] /\ c = None /\ nx = None \/
      exists i p, place (length cs) k i /\ nth_error cs i = Some p /\ c = Some p /\ nx = nth_error cs (S i)
  end.
Definition ox (o : option qpt) : list Qc := match o with Some p => [fst p] | None => [] end.
Definition stretched (x0 x : Qc) (mult : option Qc) : Qc := match mult with Some m => x0 + (x - x0) * m | None => x end.
Definition capped (x0 : Qc) (mx : option Qc) : list Qc := match mx with Some w => [x0 + w] | None => [] end.

Lemma map_nth_error' {A B} (f : A -> B) l i : nth_error (map f l) i = option_map f (nth_error l i).
Proof. revert i. induction l as [|a l IH]; intros [|i]; cbn; auto. Qed.
Lemma py_nth_at {A} (l : list A) i a : nth_error l i = Some a -> py_nth l (Z.of_nat i) = Ok a.
Proof.
  intro H. assert (L : (i < length l)%nat) by (apply nth_error_Some; congruence). unfold py_nth.
  replace (Z.of_nat i <? 0)%Z with false by (symmetry; apply Z.ltb_ge; lia).
  replace (Z.of_nat (length l) <=? Z.of_nat i)%Z with false by (symmetry; apply Z.leb_gt; lia).
  replace (Z.of_nat i <? 0)%Z with false by (symmetry; apply Z.ltb_ge; lia). cbn [orb].
  now rewrite Nat2Z.id, H.
Qed.
Lemma clip_place n k : n <> 0%nat -> exists i, clip_index (Z.of_nat n) k = Z.of_nat i /\ place n k i.
Proof.
  intro H. unfold clip_index, place. destruct (k <? 0)%Z eqn:E.
  - apply Z.ltb_lt in E. exists (Z.to_nat (Z.max 0 (Z.of_nat n + k))). split; lia.
  - apply Z.ltb_ge in E. exists (Z.to_nat (Z.min k (Z.of_nat n - 1))). split; lia.
Qed.
Lemma least_cap x0 v w : Qcltb w (v - x0) = true -> least (x0 + w) [v; x0 + w].
Proof.
  intro E. apply Qcltb_true in E. split; [ cbn; auto | ].
  intros c [ <- | [ <- | [] ] ]; [ qc_lra | apply Qcle_refl ].
Qed.

Lemma extended_spec (t : tl xq) l cs mult mx k : t_line t = Some (fs l) -> fst (fst l) <> fst (snd l) ->
  t_cross t = map fp cs -> (forall k', k = Some k' -> cs = [] -> (-1 <= k')%Z) ->
  exists c nx far x y,
    line_extended t (fo mult) (fo mx) k = Ok (Some (fp (fst l), (Fin x, Some (Fin y)))) /\ on_seg l (x, y) /\
    aims cs k c nx /\ greatest far (fst (snd l) :: ox c) /\
    least x (stretched (fst (fst l)) far mult :: capped (fst (fst l)) mx ++ ox nx).
Proof.
  intros El D Ec K. unfold line_extended. rewrite El, Ec, map_length.
  set (x0 := fst (fst l)) in *. set (x1 := fst (snd l)) in *.
  change (fst (fst (fs l))) with (Fin x0). change (fst (snd (fs l))) with (Fin x1). change (fst (fs l)) with (fp (fst l)).
  (* the crossing *)
  assert (A : exists c nx far k', aims cs k c nx /\ greatest far (x1 :: ox c) /\
    (match k with
     | None => Ok (None, Fin x1)
     | Some k => if (Z.of_nat (length cs) =? 0)%Z then Ok (Some k, Fin x1)
                 else let k := clip_index (Z.of_nat (length cs)) k in
                      let! c := py_nth (map fp cs) k in
                      Ok (Some k, if (fst c >? Fin x1)%num then fst c else Fin x1)
     end = Ok (k', Fin far)) /\
    forall v, exists w, least w (v :: ox nx) /\
      match k' with
      | None => Ok (Fin v)
      | Some k => if (k + 1 <? Z.of_nat (length cs))%Z then
                    let! c := py_nth (map fp cs) (k + 1)%Z in Ok (if (fst c <? Fin v)%num then fst c else Fin v)
                  else Ok (Fin v)
      end = Ok (Fin w)).
  { assert (G1 : forall v : Qc, greatest v [v]) by (intro v; split; [ cbn; auto | intros c [ <- | [] ]; apply Qcle_refl ]).
    assert (L1 : forall v : Qc, least v [v]) by (intro v; split; [ cbn; auto | intros c [ <- | [] ]; apply Qcle_refl ]).
    destruct k as [ k | ].
    2:{ exists None, None, x1, None. split; [ split; reflexivity | ]. split; [ apply G1 | ]. split; [ reflexivity | ].
        intro v. exists v. split; [ apply L1 | reflexivity ]. }
    destruct cs as [|c0 cs'] eqn:Ecs.
    { exists None, None, x1, (Some k). split; [ left; auto | ]. split; [ apply G1 | ]. split; [ reflexivity | ].
      intro v. exists v. split; [ apply L1 | ]. specialize (K k eq_refl eq_refl). cbn [length Z.of_nat].
      replace (k + 1 <? 0)%Z with false by (symmetry; apply Z.ltb_ge; lia). reflexivity. }
    rewrite <- Ecs in *. assert (Nz : length cs <> 0%nat) by (rewrite Ecs; discriminate).
    destruct (clip_place (length cs) k Nz) as (i & Ei & Pi).
    destruct (nth_error cs i) as [ p | ] eqn:Ep; [ | exfalso; apply nth_error_None in Ep; destruct Pi; lia ].
    assert (Fc : exists far, greatest far (x1 :: ox (Some p)) /\
      (if (fst (fp p) >? Fin x1)%num then fst (fp p) else Fin x1) = Fin far).
    { change (fst (fp p)) with (Fin (fst p)). rewrite fin_gtb. destruct (Qcltb x1 (fst p)) eqn:E.
      - apply Qcltb_true in E. exists (fst p). split; [ | reflexivity ]. split; [ cbn; auto | ].
        intros c [ <- | [ <- | [] ] ]; [ now apply Qclt_le_weak | apply Qcle_refl ].
      - apply Qcltb_false in E. exists x1. split; [ | reflexivity ]. split; [ cbn; auto | ].
        intros c [ <- | [ <- | [] ] ]; [ apply Qcle_refl | exact E ]. }
    destruct Fc as (far & Gf & Ef).
    exists (Some p), (nth_error cs (S i)), far, (Some (Z.of_nat i)).
    split; [ right; exists i, p; auto | ]. split; [ exact Gf | ]. split.
    { replace (Z.of_nat (length cs) =? 0)%Z with false by (symmetry; apply Z.eqb_neq; lia).
      cbv zeta. rewrite Ei, (py_nth_at _ _ (fp p)) by (now rewrite map_nth_error', Ep). cbn [rbind]. now rewrite Ef. }
    intro v. destruct (nth_error cs (S i)) as [ q | ] eqn:Eq.
    - assert (Lq : (S i < length cs)%nat) by (apply nth_error_Some; congruence).
      replace (Z.of_nat i + 1 <? Z.of_nat (length cs))%Z with true by (symmetry; apply Z.ltb_lt; lia).
      replace (Z.of_nat i + 1)%Z with (Z.of_nat (S i)) by lia.
      rewrite (py_nth_at _ _ (fp q)) by (now rewrite map_nth_error', Eq). cbn [rbind].
      change (fst (fp q)) with (Fin (fst q)). rewrite fin_ltb. destruct (Qcltb (fst q) v) eqn:E.
      + apply Qcltb_true in E. exists (fst q). split; [ | reflexivity ]. split; [ cbn; auto | ].
        intros c [ <- | [ <- | [] ] ]; [ now apply Qclt_le_weak | apply Qcle_refl ].
      + apply Qcltb_false in E. exists v. split; [ | reflexivity ]. split; [ cbn; auto | ].
        intros c [ <- | [ <- | [] ] ]; [ apply Qcle_refl | exact E ].
    - apply nth_error_None in Eq. replace (Z.of_nat i + 1 <? Z.of_nat (length cs))%Z with false by (symmetry; apply Z.ltb_ge; lia).
      exists v. split; [ apply L1 | reflexivity ]. }
  destruct A as (c & nx & far & k' & Aim & Gf & E1 & A2).
  (* the width *)
  assert (B : exists v, least v (stretched x0 far mult :: capped x0 mx) /\
    (match fo mx with
     | Some w => if (match fo mult with Some m => Fin x0 + (Fin far - Fin x0) * m | None => Fin far end - Fin x0 >? w)%num
                 then (Fin x0 + w)%num else match fo mult with Some m => (Fin x0 + (Fin far - Fin x0) * m)%num | None => Fin far end
     | None => match fo mult with Some m => (Fin x0 + (Fin far - Fin x0) * m)%num | None => Fin far end
     end = Fin v)).
  { replace (match fo mult with Some m => (Fin x0 + (Fin far - Fin x0) * m)%num | None => Fin far end) with (Fin (stretched x0 far mult))
      by (destruct mult; reflexivity).
    set (v := stretched x0 far mult). destruct mx as [ w | ]; cbn [fo option_map capped].
    - change (Fin v - Fin x0)%num with (Fin (v - x0)). rewrite fin_gtb. destruct (Qcltb w (v - x0)) eqn:E.
      + exists (x0 + w). split; [ now apply least_cap | reflexivity ].
      + apply Qcltb_false in E. exists v. split; [ | reflexivity ]. split; [ cbn; auto | ].
        intros z [ <- | [ <- | [] ] ]; [ apply Qcle_refl | qc_lra ].
    - exists v. split; [ | reflexivity ]. split; [ cbn; auto | ]. intros z [ <- | [] ]. apply Qcle_refl. }
  destruct B as (v & (Lv1 & Lv2) & E2). destruct (A2 v) as (x & (Lx1 & Lx2) & E3).
  exists c, nx, far, x. eexists. split.
  { etransitivity; [ apply (f_equal (fun r => rbind r _)); exact E1 | ]. cbn [rbind]. rewrite E2.
    etransitivity; [ apply (f_equal (fun r => rbind r _)); exact E3 | ]. cbn [rbind].
    rewrite (seg_y_slope l x D). cbn [rbind]. reflexivity. }
  split; [ now apply on_seg_y | ]. split; [ exact Aim | ]. split; [ exact Gf | ].
  assert (Hx : x <= v) by (apply Lx2; cbn; auto).
  split.
  - destruct Lx1 as [ <- | Lx1 ]; [ rewrite app_comm_cons; apply in_or_app; now left | ]. right. apply in_or_app. now right.
  - intros z Hz. rewrite app_comm_cons in Hz. apply in_app_or in Hz. destruct Hz as [ Hz | Hz ].
    + apply Qcle_trans with v; [ exact Hx | now apply Lv2 ].
    + apply Lx2. now right.
Qed.

(** With nothing asked for it is the line itself. *)
Lemma extended_whole (t : tl xq) l : t_line t = Some (fs l) -> fst (fst l) <> fst (snd l) ->
  line_extended t None None None = Ok (Some (fp (fst l), (Fin (fst (snd l)), Some (Fin (snd (snd l)))))).
Proof.
  intros El D. unfold line_extended. rewrite El. cbn [rbind]. change (fst (snd (fs l))) with (Fin (fst (snd l))).
  rewrite (seg_y_slope l _ D). cbn [rbind].
  assert (D' : fst (snd l) - fst (fst l) <> 0) by (apply Qc_sub_n0; auto).
  rewrite Qc_div_cancel by exact D'. match goal with |- context [Qcplus ?a (?b - ?a)] => replace (Qcplus a (b - a)) with b by ring end. reflexivity.
Qed.
Lemma nth_sorted cs : StronglySorted by_xs cs -> forall i p q, nth_error cs i = Some p -> nth_error cs (S i) = Some q -> fst p < fst q.
Proof.
  induction 1 as [|a l Sl IH F]; intros i p q Hp Hq; [ destruct i; discriminate | ]. destruct i as [|i].
  - injection Hp as <-. change (nth_error l 0 = Some q) in Hq. rewrite Forall_forall in F. apply F. now apply nth_error_In in Hq.
  - now apply (IH i).
Qed.
(** It reaches the crossing asked for, and does not pass the next one. *)
Lemma extended_reaches (t : tl xq) l cs mult k i p : t_line t = Some (fs l) -> fst (fst l) <> fst (snd l) ->
  t_cross t = map fp cs -> StronglySorted by_xs cs -> (forall m, mult = Some m -> 1 <= m) ->
  place (length cs) k i -> nth_error cs i = Some p -> fst (fst l) <= fst p ->
  exists x y, line_extended t (fo mult) None (Some k) = Ok (Some (fp (fst l), (Fin x, Some (Fin y)))) /\ on_seg l (x, y) /\
    fst p <= x /\ forall q, nth_error cs (S i) = Some q -> x <= fst q.
Proof.
  intros El D Ec So M Pl Ep L.
  destruct (extended_spec t l cs mult None (Some k) El D Ec) as (c & nx & far & x & y & E & On & Aim & (G1 & G2) & (Lx1 & Lx2)).
  { intros k' _ ->. destruct i; discriminate. }
  destruct Aim as [ (-> & _) | (j & p' & Pj & Ej & -> & ->) ]; [ destruct i; discriminate | ].
  assert (j = i) by (unfold place in *; lia). subst j. rewrite Ep in Ej. injection Ej as <-.
  exists x, y. split; [ exact E | ]. split; [ exact On | ]. 
  assert (Gp : fst p <= far) by (apply G2; cbn; auto).
  split.
  - destruct Lx1 as [ <- | Lx1 ].
    + destruct mult as [ m | ]; cbn [stretched]; [ | exact Gp ]. specialize (M m eq_refl).
      set (x0 := fst (fst l)) in *. clear - M Gp L. apply Qcle_trans with far; [ exact Gp | ].
      assert (0 <= far - x0) by qc_lra. qc_nra.
    + cbn [capped app] in Lx1. destruct (nth_error cs (S i)) as [ q | ] eqn:Eq; [ | contradiction ].
      destruct Lx1 as [ <- | [] ]. apply Qclt_le_weak. exact (nth_sorted cs So i p q Ep Eq).
  - intros q Eq. apply Lx2. right. cbn [capped app]. rewrite Eq. cbn. auto.
Qed.

Section Any.
Context {T : Type} {N : Num T}.
Variables (eps gold gold2 : T) (polyfit : list (pt T) -> T * T) (g : cfg T).

(** An index before the last on a line that was never crossed raises. *)
Lemma extended_raises (t : tl T) mult mx k : is_ready t = true -> t_cross t = [] -> (k <= -2)%Z ->
  line_extended t mult mx (Some k) = Err EIndex.
Proof.
  unfold is_ready, line_extended. destruct (t_line t) as [ l | ]; [ | discriminate ]. intros _ -> K.
  cbn [length Z.of_nat Z.eqb rbind]. replace (k + 1 <? 0)%Z with true by (symmetry; apply Z.ltb_lt; lia).
  unfold py_nth. cbn [length Z.of_nat]. replace (k + 1 <? 0)%Z with true by (symmetry; apply Z.ltb_lt; lia).
  replace (k + 1 + 0 <? 0)%Z with true by (symmetry; apply Z.ltb_lt; lia). reflexivity.
Qed.

(** *** The sequence protocol *)
Lemma sequence_spec (t : tl T) :
  length (tl_iter t) = tl_len t /\
  (forall i p, nth_error (tl_iter t) i = Some p -> tl_item t (Z.of_nat i) = Ok p /\
     tl_item t (Z.of_nat i - Z.of_nat (tl_len t)) = Ok p) /\
  (is_ready t = true -> forall i, (2 <= i \/ i < -2)%Z -> tl_item t i = Err EIndex) /\
  (is_ready t = false -> forall i, tl_item t i = Err EType).
Proof.
  unfold tl_iter, tl_len, tl_item, is_ready. destruct (t_line t) as [ l | ].
  - split; [ reflexivity | ]. split.
    + intros [|[|i]] p Hp; [ injection Hp as <-; auto | injection Hp as <-; auto | destruct i; discriminate ].
    + split; [ | discriminate ]. intros _ i Hi. unfold py_nth. cbn [length]. destruct (i <? 0)%Z eqn:E.
      * apply Z.ltb_lt in E. replace (i + Z.of_nat 2 <? 0)%Z with true by (symmetry; apply Z.ltb_lt; lia). reflexivity.
      * apply Z.ltb_ge in E. replace (Z.of_nat 2 <=? i)%Z with true by (symmetry; apply Z.leb_le; lia). now rewrite orb_true_r.
  - split; [ reflexivity | ]. split; [ intros [|i] p Hp; discriminate | ]. split; [ discriminate | auto ].
Qed.

(** *** Copies *)
Lemma copy_reads (t c : tl T) : tl_copy t = Ok c ->
  is_ready c = true /\ is_valid g c = is_valid g t /\ width c = width t /\ tl_len c = tl_len t /\ tl_iter c = tl_iter t /\
  (forall i, tl_item c i = tl_item t i) /\ (forall x, tl_y c x = tl_y t x) /\ (forall y, tl_x c y = tl_x t y) /\
  (forall mult mx k, line_extended c mult mx k = line_extended t mult mx k).
Proof.
  unfold tl_copy. destruct (t_line t) as [ l | ] eqn:E; [ | discriminate ]. intro H. injection H as <-.
  unfold is_ready, is_valid, width, tl_len, tl_iter, tl_item, tl_y, tl_x, line_extended, is_ready. cbn [t_line t_pts t_cross width].
  rewrite E. unfold width. cbn [t_pts]. repeat (split; [ reflexivity | ]). reflexivity.
Qed.
Definition with_pred (t : tl T) (q : pred T) : tl T :=
  mkTL (t_pts t) (t_bnd t) (t_tan t) (t_line t) (t_upper t) (t_lower t) (t_int t) (t_cross t) (t_ext t) q.
Lemma closest_pred t q : forall ps best, closest (with_pred t q) best ps = closest t best ps.
Proof.
  induction ps as [|p ps IH]; intro best; [ reflexivity | ]. cbn [closest]. unfold tl_y. cbn [with_pred t_line].
  destruct (t_line t) as [ l | ]; [ | reflexivity ]. cbn [need rbind]. destruct (seg_y l (fst p)) as [ [ y | ] | e ]; [ | reflexivity | reflexivity ].
  cbn [need rbind]. apply IH.
Qed.
Lemma flush_pred t q ti o : flush_on (with_pred t q) ti o = flush_on t ti o.
Proof. unfold flush_on. destruct (o_on o); [ reflexivity | ]. now rewrite closest_pred. Qed.
Lemma poi_loop_pred t q ui ci ti : forall ps o, poi_loop (with_pred t q) ui ci ti o ps = poi_loop t ui ci ti o ps.
Proof.
  induction ps as [|p ps IH]; intro o; [ reflexivity | ]. cbn [poi_loop]. destruct (negb (i_contains ui (fst p))); [ reflexivity | ].
  change (on_trend (with_pred t q) p) with (on_trend t p). destruct (on_trend t p) as [ [ | ] | e ]; [ | | reflexivity ]; cbn [rbind].
  - apply IH.
  - rewrite flush_pred. destruct (flush_on t ti o) as [ o1 | e ]; [ | reflexivity ]. cbn [rbind].
    change (tl_y (with_pred t q) (fst p)) with (tl_y t (fst p)). destruct (tl_y t (fst p)) as [ y | e ]; [ | reflexivity ]. cbn [rbind].
    change (t_line (with_pred t q)) with (t_line t).
    match goal with |- rbind ?a _ = rbind ?b _ => change a with b; destruct b as [ o2 | e ]; [ | reflexivity ] end. cbn [rbind].
    match goal with |- (let '(a, b) := ?z in _) = _ => destruct z as [a b] end. apply IH.
Qed.
Lemma update_poi_pred t q under : update_poi g (with_pred t q) under =
  let! (t, b) := update_poi g t under in Ok (with_pred t q, b).
Proof.
  unfold update_poi. change (is_ready (with_pred t q)) with (is_ready t). destruct (negb (is_ready t)); [ reflexivity | ].
  destruct under as [|u us]; [ reflexivity | ].
  change (poi_interval (with_pred t q)) with (poi_interval t). cbn [with_pred t_cross t_tan t_ext].
  rewrite poi_loop_pred. destruct (poi_loop t _ _ _ _ _) as [ o | e ]; [ | reflexivity ]. cbn [rbind].
  rewrite flush_pred. destruct (flush_on t _ o) as [ o1 | e ]; [ | reflexivity ]. cbn [rbind].
  destruct (o_found (push_ext o1)); reflexivity.
Qed.
(** A line that is not valid yet goes on the same as its copy. *)
Lemma copy_append (t c : tl T) p under : tl_copy t = Ok c -> is_valid g t = false -> i_contains (t_int t) (fst p) = true ->
  did_append eps gold gold2 polyfit g c p under = did_append eps gold gold2 polyfit g t p under.
Proof.
  intros C V I. destruct (copy_reads t c C) as (Rc & Vc & _). unfold did_append. rewrite Vc, V.
  unfold tl_copy in C. destruct (t_line t) as [ l | ] eqn:E; [ | discriminate ]. injection C as <-.
  cbn [t_int t_bnd t_pts t_tan t_line t_upper t_lower t_cross t_ext t_pred]. rewrite I. cbn [negb]. rewrite !andb_false_r.
  destruct (insort (t_bnd t) p 0 None true) as [ bnd | e ]; [ | reflexivity ]. cbn [rbind].
  match goal with |- rbind (update_trend _ _ _ _ _ ?a _) _ = rbind (update_trend _ _ _ _ _ ?b _) _ =>
    assert (U : update_trend eps gold gold2 polyfit g a under = update_trend eps gold gold2 polyfit g b under);
    [ | now rewrite U ]; unfold update_trend;
    assert (Va : is_valid g a = false); [ | assert (Vb : is_valid g b = false); [ | rewrite Va, Vb ] ] end.
  - rewrite <- V. unfold is_valid, is_ready, width. cbn [t_line t_pts]. now rewrite E.
  - rewrite <- V. unfold is_valid, is_ready, width. cbn [t_line t_pts]. now rewrite E.
  - cbn [t_bnd t_tan t_upper t_lower t_int t_cross t_ext t_pred]. destruct (set_trend eps g bnd) as [ [pts bnd'] | e ]; [ | reflexivity ]. cbn [rbind].
    match goal with |- rbind (update_poi _ ?x _) _ = rbind (update_poi _ ?y _) _ => change x with (with_pred y pred0) end.
    rewrite update_poi_pred. destruct (update_poi g _ under) as [ [t2 b2] | e ]; reflexivity.
Qed.
(** The copy cannot tell what is on the trend ... *)
Lemma copy_on_trend (t c : tl T) p : tl_copy t = Ok c -> i_contains (t_int t) (fst p) = true ->
  exists e, on_trend c p = Err e.
Proof.
  unfold tl_copy. destruct (t_line t) as [ l | ] eqn:E; [ | discriminate ]. intro H. injection H as <-. intro I.
  unfold on_trend. cbn [t_line t_int t_lower]. rewrite I. cbn [negb need rbind]. now exists EType.
Qed.
(** ... so a copy of a valid line takes no further point in its search interval. *)
Lemma copy_append_raises (t c : tl T) p under : tl_copy t = Ok c -> is_valid g t = true -> i_contains (t_int t) (fst p) = true ->
  exists e, did_append eps gold gold2 polyfit g c p under = Err e.
Proof.
  intros C V I. destruct (copy_reads t c C) as (Rc & Vc & _). destruct (copy_on_trend t c p C I) as (e & O).
  unfold did_append. rewrite Vc, V, O. unfold tl_copy in C. destruct (t_line t) as [ l | ]; [ | discriminate ]. injection C as <-.
  cbn [t_int]. rewrite I. cbn [negb]. rewrite andb_false_r. now exists e.
Qed.
Lemma copy_raises (t : tl T) : is_ready t = false -> tl_copy t = Err EType.
Proof. unfold is_ready, tl_copy. now destruct (t_line t). Qed.

(** *** The lines of a Trend *)
Lemma filter_filter {A} (f h : A -> bool) l : filter f (filter h l) = filter (fun x => f x && h x) l.
Proof. induction l as [|a l IH]; [ reflexivity | ]. cbn. destruct (h a); cbn; [ destruct (f a); cbn; now rewrite IH | rewrite andb_false_r; exact IH ]. Qed.
Lemma trend_select (r : trend T) x :
  trend_upper g r (Some x) = filter (fun t => i_contains (t_int t) x) (trend_upper g r None) /\
  trend_lower g r (Some x) = filter (fun t => i_contains (t_int t) x) (trend_lower g r None) /\
  trend_lines g r = trend_lower g r None ++ trend_upper g r None /\
  scanned_lines g r (Some x) = filter (fun t => i_contains (t_int t) x) (trend_lines g r).
Proof.
  assert (E : forall cg l, filter (line_filter g cg (Some x)) l = filter (fun t => i_contains (t_int t) x) (filter (line_filter g cg None) l)).
  { intros cg l. rewrite filter_filter. apply filter_ext. intro t. unfold line_filter. 
    destruct (is_valid cg t), (i_contains (t_int t) x), (negb _); reflexivity. }
  unfold trend_upper, trend_lower, trend_lines, scanned_lines, scanned_upper, scanned_lower. rewrite !E. rewrite filter_app. auto.
Qed.
End Any.

(** *** x and y *)
Lemma seg_round l x : fst (fst l) <> fst (snd l) -> snd (fst l) <> snd (snd l) ->
  exists y, seg_y (fs l) (Fin x) = Ok (Some (Fin y)) /\ seg_x (fs l) (Fin y) = Ok (Some (Fin x)).
Proof.
  intros D H. assert (P : proper l) by (intro E; apply D; exact (f_equal (@fst Qc Qc) E)).
  pose proof (seg_y_slope l x D) as E. pose proof (on_seg_y l x D) as O.
  set (y := snd (fst l) + _) in *. exists y. split; [ exact E | ].
  destruct (line_x_on l y P) as (o & Ex & S). destruct o as [ v | ]; [ | exfalso; exact (S x O) ].
  destruct S as (x' & -> & O' & U). rewrite Ex. now rewrite (U H x O).
Qed.
Lemma seg_round_back l y : fst (fst l) <> fst (snd l) -> snd (fst l) <> snd (snd l) ->
  exists x, seg_x (fs l) (Fin y) = Ok (Some (Fin x)) /\ seg_y (fs l) (Fin x) = Ok (Some (Fin y)).
Proof.
  intros D H. assert (P : proper l) by (intro E; apply D; exact (f_equal (@fst Qc Qc) E)).
  destruct (line_x_on l y P) as (o & Ex & S). destruct o as [ v | ].
  - destruct S as (x & -> & O & _). exists x. split; [ exact Ex | ].
    destruct (line_y_on l x P) as (o & Ey & S). destruct o as [ v | ]; [ | exfalso; exact (S y O) ].
    destruct S as (y' & -> & _ & U). rewrite Ey. now rewrite (U D y O).
  - exfalso. destruct l as [[x1 y1] [x2 y2]]. cbn in *. assert (Z : y2 - y1 <> 0) by (apply Qc_sub_n0; auto).
    apply (S (x1 + (y - y1) * (x2 - x1) / (y2 - y1))). unfold on_seg. cbn [fst snd].
    pose proof (Qc_div_cancel ((y - y1) * (x2 - x1)) (y2 - y1) Z) as C.
    transitivity ((y - y1) * (x2 - x1) / (y2 - y1) * (y2 - y1)); [ now rewrite C | ring ].
Qed.
Lemma line_round (t : tl xq) l x : t_line t = Some (fs l) -> fst (fst l) <> fst (snd l) -> snd (fst l) <> snd (snd l) ->
  (exists y, tl_y t (Fin x) = Ok (Fin y) /\ tl_x t (Fin y) = Ok (Some (Fin x))) /\
  (exists y, tl_x t (Fin x) = Ok (Some (Fin y)) /\ tl_y t (Fin y) = Ok (Fin x)).
Proof.
  intros E D H. unfold tl_x, tl_y. rewrite E. cbn [need rbind]. split.
  - destruct (seg_round l x D H) as (y & A & B). exists y. rewrite A, B. auto.
  - destruct (seg_round_back l x D H) as (y & A & B). exists y. rewrite A, B. auto.
Qed.

(** *** The tolerance tests on points that fit exactly *)
Section Fit.
Variables (eps : Qc) (wd di ln : xq) (up : bool) (mp : Z) (r a : option Qc) (polyfit : list (xq * xq) -> xq * xq).
Hypothesis (Heps : 0 <= eps) (Hr : nonneg_o r) (Ha : nonneg_o a).
Variables (c m : Qc) (ps : list qpt).
Hypothesis (Hfit : polyfit (map fp ps) = (Fin c, Fin m)) (Hcol : Forall (fun p => snd p = c + m * fst p) ps).

Lemma all_within_exact : forall l, Forall (fun p => snd p = c + m * fst p) l -> all_within (Fin eps) (fo r) (fo a) (Fin c) (Fin m) (map fp l) = Ok true.
Proof.
  induction 1 as [|p l E F IH]; [ reflexivity | ]. cbn [map all_within].
  change (snd (fp p)) with (Fin (snd p)). change (Fin c + Fin m * fst (fp p))%num with (Fin (c + m * fst p)). rewrite <- E.
  rewrite within_self by auto. cbn [rbind]. exact IH.
Qed.
Lemma fit_exact : fit_within (Fin eps) polyfit (fo r) (fo a) (map fp ps) = Ok true.
Proof.
  unfold fit_within. destruct ps as [|p0 [|p1 [|p2 l]]]; try reflexivity.
  change (map fp (p0 :: p1 :: p2 :: l)) with (fp p0 :: fp p1 :: fp p2 :: map fp l) in *. rewrite Hfit.
  exact (all_within_exact (p0 :: p1 :: p2 :: l) Hcol).
Qed.
Lemma method_exact : (3 <= length ps)%nat -> Forall (fun p => 0 <= snd p \/ r = None) ps ->
  method_fit (Fin eps) polyfit (mkG wd up mp di ln (fo r) (fo a)) (map fp ps) = false.
Proof.
  intros L Y. unfold method_fit. destruct ps as [|p0 [|p1 [|p2 l]]]; [ cbn in L; lia | cbn in L; lia | cbn in L; lia | ].
  change (map fp (p0 :: p1 :: p2 :: l)) with (fp p0 :: fp p1 :: fp p2 :: map fp l) in *. rewrite Hfit.
  cbn [forallb]. apply andb_false_intro1. change (snd (fp p0)) with (Fin (snd p0)).
  change (Fin c + Fin m * fst (fp p0))%num with (Fin (c + m * fst p0)). rewrite <- (Forall_inv Hcol).
  destruct (method_within _ _ _ _) eqn:E; [ | reflexivity ]. apply method_inverted in E.
  destruct (band_around eps wd up mp di ln r a (snd p0) Hr Ha (Forall_inv Y)) as [ B1 B2 ]. exfalso.
  destruct E as [ E | E ]; [ apply Qclt_not_le in E | apply Qclt_not_le in E ]; contradiction.
Qed.
End Fit.
