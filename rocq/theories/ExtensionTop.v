(** Constant and tangent extensions: their values, domains, steps and
    announcements. *)
From Coq Require Import List ZArith Bool Lia QArith Qcanon Lqa.
From Verif Require Import Base Num NumFacts Interval IntervalFacts Curve UpdFacts Combine Extension ExtensionFacts.
Import ListNotations.
Open Scope num_scope.
Open Scope bool_scope.

Notation dom s := (c_dom (s_c s)).

(** ** Sides of an interval *)

Lemma iok_get_lt d : iok d -> iok (i_get_lt d).
Proof. intros [A B]. split; [ discriminate | exact A ]. Qed.
Lemma iok_get_gt d : iok d -> iok (i_get_gt d).
Proof. intros [A B]. split; [ exact B | discriminate ]. Qed.

Lemma lt_contains (d : ival xq) q : iok d -> i_contains (i_inter [i_infinite; i_get_lt d]) (Fin q) = true <->
  (if i_so d then (emb (Fin q) <= emb (i_start d))%Q else (emb (Fin q) < emb (i_start d))%Q).
Proof.
  intro O. pose proof (iok_get_lt d O) as O1. pose proof iok_infinite as O2.
  change (i_inter [i_infinite; i_get_lt d]) with (i_inter2 i_infinite (i_get_lt d)).
  rewrite contains_e by (try apply iok_inter2; auto; discriminate). rewrite inter2_emem by auto.
  unfold emem, i_get_lt, i_infinite. cbn -[emb].
  pose proof (emb_fin_bound q). change (emb NInf) with (- (1))%Q. change (emb PInf) with 1%Q.
  destruct (i_so d); cbn [negb]; split; intuition lra.
Qed.

Lemma gt_contains (d : ival xq) q : iok d -> i_contains (i_inter [i_infinite; i_get_gt d]) (Fin q) = true <->
  (if i_eo d then (emb (i_end d) <= emb (Fin q))%Q else (emb (i_end d) < emb (Fin q))%Q).
Proof.
  intro O. pose proof (iok_get_gt d O) as O1. pose proof iok_infinite as O2.
  change (i_inter [i_infinite; i_get_gt d]) with (i_inter2 i_infinite (i_get_gt d)).
  rewrite contains_e by (try apply iok_inter2; auto; discriminate). rewrite inter2_emem by auto.
  unfold emem, i_get_gt, i_infinite. cbn -[emb].
  pose proof (emb_fin_bound q). change (emb NInf) with (- (1))%Q. change (emb PInf) with 1%Q.
  destruct (i_eo d); cbn [negb]; split; intuition lra.
Qed.

Lemma all_contains q : i_contains (i_union [i_infinite; i_infinite]) (Fin q) = true.
Proof. reflexivity. Qed.

(** A number outside a non-empty interval is on exactly one side of it. *)
Lemma sides (d : ival xq) q : iok d -> i_is_empty d = false -> i_contains d (Fin q) = false ->
  i_contains (i_inter [i_infinite; i_get_lt d]) (Fin q) = xq_leb (Fin q) (i_start d)
  /\ i_contains (i_inter [i_infinite; i_get_gt d]) (Fin q) = xq_leb (i_end d) (Fin q)
  /\ xq_leb (Fin q) (i_start d) = negb (xq_leb (i_end d) (Fin q)).
Proof.
  intros O E C. pose proof O as [A B]. apply is_empty_e_false in E; [ | exact O ].
  apply contains_false_e in C; [ | exact O | discriminate ].
  unfold eempty in E. unfold emem in C.
  assert (X : forall b b' : bool, (b = true <-> b' = true) -> b = b') by (intros [|] [|]; intuition congruence).
  split; [ | split ]; apply X; rewrite ?negb_true_iff, <- ?not_true_iff_false.
  - rewrite lt_contains, xq_leb_emb by (auto; discriminate). destruct (i_so d), (i_eo d); intuition lra.
  - rewrite gt_contains, xq_leb_emb by (auto; discriminate). destruct (i_so d), (i_eo d); intuition lra.
  - rewrite !xq_leb_emb by (auto; discriminate). destruct (i_so d), (i_eo d); intuition (try lra).
Qed.

(** ** Constant extensions *)

(** The source can be extended: reading its edges does not raise, and an empty
    source is extended on both sides. *)
Definition const_good (s : src xq) (st en : bool) : Prop :=
  if i_is_empty (dom s) then st = true /\ en = true
  else (st = true -> exists v, c_y (s_c s) (i_start (dom s)) = Ok v)
       /\ (en = true -> exists v, c_y (s_c s) (i_end (dom s)) = Ok v).
Definition const_alike (s s' : src xq) : Prop :=
  dom s' = dom s
  /\ c_y (s_c s') (i_start (dom s)) = c_y (s_c s) (i_start (dom s))
  /\ c_y (s_c s') (i_end (dom s)) = c_y (s_c s) (i_end (dom s)).
Notation const_lives le ge := (lives constant_ext le ge const_good const_alike).

Definition const_shaped (e : ext xq (option xq)) : Prop :=
  e_sv e = true /\ e_ev e = true
  /\ (e_start e = true -> e_sf e <> None) /\ (e_end e = true -> e_ef e <> None).
Definition const_matches (s : src xq) (e : ext xq (option xq)) : Prop :=
  i_is_empty (dom s) = false ->
  (e_start e = true -> exists v, c_y (s_c s) (i_start (dom s)) = Ok v /\ e_sf e = Some v)
  /\ (e_end e = true -> exists v, c_y (s_c s) (i_end (dom s)) = Ok v /\ e_ef e = Some v).

Lemma opt_same_eq (a b : option xq) : opt_same a b = true -> a = b.
Proof.
  destruct a as [ a | ], b as [ b | ]; cbn; try discriminate; [ | reflexivity ].
  intro E. now destruct (xq_eqb_true a b E) as [ -> _ ].
Qed.

Lemma announce_same {F} (e : ext xq F) : looks e (fst (announce e)) /\ frame e (fst (announce e)).
Proof.
  unfold announce. destruct (begin_update (e_upd e) i_infinite) as [ u1 b ].
  destruct (end_update u1 i_infinite) as [ u2 n ]. repeat split.
Qed.

Lemma put_start_ok v e : e_sf e <> None -> exists e' evs, put_start v e = (e', evs, Ok tt)
  /\ frame e e' /\ looks (set_sf e (Some v)) e'.
Proof.
  intro S. unfold put_start. destruct (e_sf e) as [ old | ] eqn:Old; [ | congruence ].
  destruct (opt_same v old) eqn:Q.
  - exists e, []. apply opt_same_eq in Q. subst old. split; [ reflexivity | ]. repeat split. exact Old.
  - destruct (announce_same (set_sf e (Some v))) as [ L Fr ].
    destruct (announce (set_sf e (Some v))) as [ e1 evs ]. cbn [fst] in L, Fr.
    exists e1, evs. auto.
Qed.

Lemma put_end_ok v e : e_ef e <> None -> exists e' evs, put_end v e = (e', evs, Ok tt)
  /\ frame e e' /\ looks (set_ef e (Some v)) e'.
Proof.
  intro S. unfold put_end. destruct (e_ef e) as [ old | ] eqn:Old; [ | congruence ].
  destruct (opt_same v old) eqn:Q.
  - exists e, []. apply opt_same_eq in Q. subst old. split; [ reflexivity | ]. repeat split. exact Old.
  - destruct (announce_same (set_ef e (Some v))) as [ L Fr ].
    destruct (announce (set_ef e (Some v))) as [ e1 evs ]. cbn [fst] in L, Fr.
    exists e1, evs. auto.
Qed.

Lemma const_update_ok s e : const_shaped e -> const_good s (e_start e) (e_end e) ->
  exists e' evs, constant_update s e = (e', evs, Ok tt) /\ frame e e' /\ const_shaped e' /\ const_matches s e'.
Proof.
  intros (Sv & Ev & Ss & Se) G. unfold const_good in G. unfold constant_update.
  destruct (i_is_empty (dom s)) eqn:Em.
  - destruct G as [ A B ].
    destruct (put_start_ok None e (Ss A)) as (e1 & v1 & P1 & F1 & L1). rewrite P1. unfold andthen.
    destruct F1 as (a1 & a2 & a3 & a4 & a5 & a6), L1 as (b1 & b2 & b3 & b4 & b5 & b6). cbn in b1, b2, b3, b4, b5, b6.
    destruct (put_end_ok None e1) as (e2 & v2 & P2 & F2 & L2); [ rewrite b6; auto | ]. rewrite P2.
    destruct F2 as (c1 & c2 & c3 & c4 & c5 & c6), L2 as (d1 & d2 & d3 & d4 & d5 & d6). cbn in d1, d2, d3, d4, d5, d6.
    exists e2, (v1 ++ v2). split; [ reflexivity | ]. split; [ repeat split; congruence | ].
    split; [ | intro X; congruence ]. repeat split; try congruence.
  - destruct G as [ A B ].
    assert (X : exists e1 v1, (if e_start e then
         match c_y (s_c s) (i_start (dom s)) with Err x => (e, [], Err x) | Ok y => put_start y e end
       else (e, [], Ok tt)) = (e1, v1, Ok tt) /\ frame e e1 /\ const_shaped e1 /\ e_ef e1 = e_ef e
       /\ (e_start e = true -> exists v, c_y (s_c s) (i_start (dom s)) = Ok v /\ e_sf e1 = Some v)).
    { destruct (e_start e) eqn:St.
      - destruct (A eq_refl) as [ v V ]. rewrite V. destruct (put_start_ok v e (Ss eq_refl)) as (e1 & v1 & P1 & F1 & L1).
        exists e1, v1. split; [ exact P1 | ]. split; [ exact F1 | ].
        destruct L1 as (b1 & b2 & b3 & b4 & b5 & b6). cbn in b1, b2, b3, b4, b5, b6.
        split; [ repeat split; try congruence; intro; rewrite b6; apply Se; congruence | ].
        split; [ exact b6 | ]. intros _. exists v. auto.
      - exists e, []. split; [ reflexivity | ]. repeat split; auto; congruence. }
    destruct X as (e1 & v1 & P1 & F1 & (S1 & S2 & S3 & S4) & Ef & St). rewrite P1. unfold andthen.
    destruct F1 as (a1 & a2 & a3 & a4 & a5 & a6).
    destruct (e_end e1) eqn:En.
    + destruct (B (eq_sym a2)) as [ w W ]. rewrite W.
      destruct (put_end_ok w e1 (S4 eq_refl)) as (e2 & v2 & P2 & F2 & L2). rewrite P2.
      destruct F2 as (c1 & c2 & c3 & c4 & c5 & c6), L2 as (d1 & d2 & d3 & d4 & d5 & d6). cbn in d1, d2, d3, d4, d5, d6.
      exists e2, (v1 ++ v2). split; [ reflexivity | ]. split; [ repeat split; congruence | ].
      split; [ repeat split; try congruence; intro; rewrite d5; apply S3; congruence | ].
      intros _. split; [ rewrite d1, a1, d5; exact St | ]. intros _. exists w. auto.
    + exists e1, (v1 ++ []). split; [ reflexivity | ]. split; [ repeat split; congruence | ].
      split; [ repeat split; auto; congruence | ]. intros _. split; [ rewrite a1; exact St | congruence ].
Qed.

Lemma const_looks e e' : looks e e' -> const_shaped e -> const_shaped e'.
Proof. intros (b1 & b2 & b3 & b4 & b5 & b6) (A & B & C & D). unfold const_shaped. rewrite b1, b2, b3, b4, b5, b6. auto. Qed.
Lemma const_matches_looks s e e' : looks e e' -> const_matches s e -> const_matches s e'.
Proof. intros (b1 & b2 & b3 & b4 & b5 & b6). unfold const_matches. now rewrite b1, b2, b5, b6. Qed.
Lemma const_init s st en : const_shaped (ext_init constant_ext s st en false).
Proof.
  unfold ext_init. repeat split; cbn;
    destruct (i_is_negative_infinite (dom s)), (i_is_positive_infinite (dom s)), st, en; discriminate.
Qed.
Lemma const_alike_matches s s' e : const_alike s s' -> const_good s' (e_start e) (e_end e) ->
  const_matches s e -> const_matches s' e.
Proof. intros (A & B & C) _. unfold const_matches. now rewrite A, B, C. Qed.

Lemma const_outside le ge st en s e x : const_lives le ge st en s e -> i_contains (dom s) x = false ->
  exists e', const_matches s e' /\ const_shaped e' /\ e_start e' = st /\ e_end e' = en
    /\ snd (ext_y constant_ext s e x)
       = if i_contains (compute_interval s e') x then y_extension constant_ext s e' x else Ok None.
Proof.
  eapply (ext_y_outside constant_ext le ge const_good const_alike const_shaped const_matches).
  - exact const_looks.
  - exact const_matches_looks.
  - exact const_init.
  - exact const_update_ok.
  - intros a b (A & _). exact A.
  - exact const_alike_matches.
Qed.

Theorem const_value le ge st en s e q : const_lives le ge st en s e -> iok (dom s) ->
  snd (ext_y constant_ext s e (Fin q)) =
    if i_contains (dom s) (Fin q) then c_y (s_c s) (Fin q)
    else if i_is_empty (dom s) then Ok None
    else if xq_leb (Fin q) (i_start (dom s)) then (if st then c_y (s_c s) (i_start (dom s)) else Ok None)
    else (if en then c_y (s_c s) (i_end (dom s)) else Ok None).
Proof.
  intros L O. destruct (i_contains (dom s) (Fin q)) eqn:C; [ unfold ext_y; now rewrite C | ].
  destruct (const_outside le ge st en s e (Fin q) L C) as (e' & M & (Sv & Ev & _) & A & B & ->).
  destruct (i_is_empty (dom s)) eqn:Em.
  { unfold y_extension. rewrite Em. destruct (i_contains (compute_interval s e') (Fin q)); reflexivity. }
  destruct (sides (dom s) q O Em C) as (S1 & S2 & S3).
  destruct (M Em) as [ Ms Me ]. rewrite A in Ms. rewrite B in Me.
  unfold compute_interval, y_extension. rewrite Sv, Ev, A, B, Em, !andb_true_r. unfold n_geb. cbn [n_leb XQ].
  destruct st, en; cbn [andb].
  - rewrite all_contains. destruct (xq_leb (Fin q) (i_start (dom s))) eqn:Lo.
    + destruct (Ms eq_refl) as (v & V & ->). cbn. now rewrite V.
    + symmetry in S3. apply negb_false_iff in S3. rewrite S3.
      destruct (Me eq_refl) as (v & V & ->). cbn. now rewrite V.
  - rewrite S1. destruct (xq_leb (Fin q) (i_start (dom s))); [ | reflexivity ].
    destruct (Ms eq_refl) as (v & V & ->). cbn. now rewrite V.
  - rewrite S2, S3. destruct (xq_leb (i_end (dom s)) (Fin q)) eqn:Hi; cbn [negb]; [ | reflexivity ].
    destruct (Me eq_refl) as (v & V & ->). cbn. now rewrite V.
  - destruct (xq_leb (Fin q) (i_start (dom s))); reflexivity.
Qed.

(** ** Tangent extensions *)

Section Tangent.
Variables (mode : tangent_mode xq) (own : option xq).

Definition tan_good (s : src xq) (st en : bool) : Prop :=
  (st = true -> exists r, tangent_edge mode own s true = Ok r)
  /\ (en = true -> exists r, tangent_edge mode own s false = Ok r).
Definition tan_alike (s s' : src xq) : Prop :=
  dom s' = dom s
  /\ tangent_edge mode own s' true = tangent_edge mode own s true
  /\ tangent_edge mode own s' false = tangent_edge mode own s false.

(** The line through the edge (x0, y0) with slope m, if there is one. *)
Definition through (edge : res (xq * option xq * option xq)) (x : xq) : res (option xq) :=
  match edge with
  | Ok (x0, Some y0, Some m) => Ok (Some (y0 + m * (x - x0)))
  | _ => Ok None
  end.

Definition tan_shaped (e : ext xq (line xq)) : Prop :=
  (e_start e = true -> e_sf e <> None) /\ (e_end e = true -> e_ef e <> None).
Definition side (edge : res (xq * option xq * option xq)) (valid : bool) (f : option (line xq)) : Prop :=
  match edge with
  | Ok (x, Some y, Some m) => valid = true /\ f = Some (mkL x y m)
  | _ => valid = false
  end.
Definition tan_matches (s : src xq) (e : ext xq (line xq)) : Prop :=
  (e_start e = true -> side (tangent_edge mode own s true) (e_sv e) (e_sf e))
  /\ (e_end e = true -> side (tangent_edge mode own s false) (e_ev e) (e_ef e)).

Lemma line_same_eq (a b : line xq) : line_same a b = true -> a = b.
Proof.
  unfold line_same. rewrite !andb_true_iff. intros [[ A B ] C]. destruct a, b. cbn in *.
  apply xq_eqb_true in A, B, C. destruct A as [ -> _ ], B as [ -> _ ], C as [ -> _ ]. reflexivity.
Qed.

Lemma tan_start_ok l e : e_sf e <> None -> exists e' evs, tan_start l e = (e', evs, Ok tt)
  /\ frame e e' /\ looks (set_sf e (Some l)) e'.
Proof.
  intro S. unfold tan_start. destruct (e_sf e) as [ old | ] eqn:Old; [ | congruence ].
  destruct (line_same l old) eqn:Q.
  - exists e, []. apply line_same_eq in Q. subst old. split; [ reflexivity | ]. repeat split. exact Old.
  - destruct (announce_same (set_sf e (Some l))) as [ L Fr ].
    destruct (announce (set_sf e (Some l))) as [ e1 evs ]. cbn [fst] in L, Fr.
    exists e1, evs. auto.
Qed.
Lemma tan_end_ok l e : e_ef e <> None -> exists e' evs, tan_end l e = (e', evs, Ok tt)
  /\ frame e e' /\ looks (set_ef e (Some l)) e'.
Proof.
  intro S. unfold tan_end. destruct (e_ef e) as [ old | ] eqn:Old; [ | congruence ].
  destruct (line_same l old) eqn:Q.
  - exists e, []. apply line_same_eq in Q. subst old. split; [ reflexivity | ]. repeat split. exact Old.
  - destruct (announce_same (set_ef e (Some l))) as [ L Fr ].
    destruct (announce (set_ef e (Some l))) as [ e1 evs ]. cbn [fst] in L, Fr.
    exists e1, evs. auto.
Qed.

Lemma tan_half_start s e : tan_shaped e -> (e_start e = true -> exists r, tangent_edge mode own s true = Ok r) ->
  exists e1 v1, (if e_start e then
       match tangent_edge mode own s true with
       | Err x => (e, [], Err x)
       | Ok (x, Some y, Some dy) => tan_start (mkL x y dy) (set_sv e true)
       | Ok _ => (set_sv e false, [], Ok tt)
       end
     else (e, [], Ok tt)) = (e1, v1, Ok tt) /\ frame e e1 /\ tan_shaped e1 /\ e_ev e1 = e_ev e /\ e_ef e1 = e_ef e
   /\ (e_start e = true -> side (tangent_edge mode own s true) (e_sv e1) (e_sf e1)).
Proof.
  intros [ Ss Se ] G. destruct (e_start e) eqn:St.
  2: { exists e, []. split; [ reflexivity | ]. split; [ repeat split | ]. repeat split; auto; congruence. }
  destruct (G eq_refl) as [ r R ]. rewrite R. destruct r as [[ x [ y | ] ] [ m | ] ].
  1: { destruct (tan_start_ok (mkL x y m) (set_sv e true) (Ss eq_refl)) as (e1 & v1 & P & Fr & L).
       destruct Fr as (a1 & a2 & a3 & a4 & a5 & a6), L as (b1 & b2 & b3 & b4 & b5 & b6).
       cbn in a1, a2, a3, a4, a5, a6, b1, b2, b3, b4, b5, b6.
       exists e1, v1. split; [ exact P | ]. split; [ repeat split; congruence | ].
       split; [ split; [ congruence | rewrite b2, b6; exact Se ] | ].
       split; [ exact b4 | ]. split; [ exact b6 | ]. intros _. cbn. auto. }
  all: exists (set_sv e false), []; split; [ reflexivity | ]; split; [ repeat split | ];
    split; [ split; cbn; [ rewrite St; exact Ss | exact Se ] | ]; repeat split.
Qed.

Lemma tan_half_end s e : tan_shaped e -> (e_end e = true -> exists r, tangent_edge mode own s false = Ok r) ->
  exists e1 v1, (if e_end e then
         match tangent_edge mode own s false with
         | Err x => (e, [], Err x)
         | Ok (x, Some y, Some dy) => tan_end (mkL x y dy) (set_ev e true)
         | Ok _ => (set_ev e false, [], Ok tt)
         end
       else (e, [], Ok tt)) = (e1, v1, Ok tt) /\ frame e e1 /\ tan_shaped e1 /\ e_sv e1 = e_sv e /\ e_sf e1 = e_sf e
   /\ (e_end e = true -> side (tangent_edge mode own s false) (e_ev e1) (e_ef e1)).
Proof.
  intros [ Ss Se ] G. destruct (e_end e) eqn:St.
  2: { exists e, []. split; [ reflexivity | ]. split; [ repeat split | ]. repeat split; auto; congruence. }
  destruct (G eq_refl) as [ r R ]. rewrite R. destruct r as [[ x [ y | ] ] [ m | ] ].
  1: { destruct (tan_end_ok (mkL x y m) (set_ev e true) (Se eq_refl)) as (e1 & v1 & P & Fr & L).
       destruct Fr as (a1 & a2 & a3 & a4 & a5 & a6), L as (b1 & b2 & b3 & b4 & b5 & b6).
       cbn in a1, a2, a3, a4, a5, a6, b1, b2, b3, b4, b5, b6.
       exists e1, v1. split; [ exact P | ]. split; [ repeat split; congruence | ].
       split; [ split; [ rewrite b1, b5; exact Ss | congruence ] | ].
       split; [ exact b3 | ]. split; [ exact b5 | ]. intros _. cbn. auto. }
  all: exists (set_ev e false), []; split; [ reflexivity | ]; split; [ repeat split | ];
    split; [ split; cbn; [ exact Ss | rewrite St; exact Se ] | ]; repeat split.
Qed.

Lemma tan_update_ok s e : tan_shaped e -> tan_good s (e_start e) (e_end e) ->
  exists e' evs, tangent_update mode own s e = (e', evs, Ok tt) /\ frame e e' /\ tan_shaped e' /\ tan_matches s e'.
Proof.
  intros Sh [ A B ]. unfold tangent_update.
  destruct (tan_half_start s e Sh A) as (e1 & v1 & P1 & (a1 & a2 & a3 & a4 & a5 & a6) & S1 & V1 & E1 & M1).
  rewrite P1. unfold andthen. rewrite <- a2 in B.
  destruct (tan_half_end s e1 S1 B) as (e2 & v2 & P2 & (b1 & b2 & b3 & b4 & b5 & b6) & S2 & V2 & E2 & M2).
  rewrite P2. exists e2, (v1 ++ v2). split; [ reflexivity | ]. split; [ repeat split; congruence | ].
  split; [ exact S2 | ]. split.
  - rewrite b1, V2, E2, a1. exact M1.
  - rewrite b2. exact M2.
Qed.

Lemma tan_looks e e' : looks e e' -> tan_shaped e -> tan_shaped e'.
Proof. intros (b1 & b2 & b3 & b4 & b5 & b6) (C & D). unfold tan_shaped. rewrite b1, b2, b5, b6. auto. Qed.
Lemma tan_matches_looks s e e' : looks e e' -> tan_matches s e -> tan_matches s e'.
Proof. intros (b1 & b2 & b3 & b4 & b5 & b6). unfold tan_matches. now rewrite b1, b2, b3, b4, b5, b6. Qed.
Lemma tan_init s st en : tan_shaped (ext_init (tangent_ext mode own) s st en false).
Proof.
  unfold ext_init. repeat split; cbn;
    destruct (i_is_negative_infinite (dom s)), (i_is_positive_infinite (dom s)), st, en; discriminate.
Qed.
Lemma tan_alike_matches s s' e : tan_alike s s' -> tan_good s' (e_start e) (e_end e) ->
  tan_matches s e -> tan_matches s' e.
Proof. intros (A & B & C) _. unfold tan_matches. now rewrite B, C. Qed.

Notation tan_lives le ge := (lives (tangent_ext mode own) le ge tan_good tan_alike).

Lemma tan_outside le ge st en s e x : tan_lives le ge st en s e -> i_contains (dom s) x = false ->
  exists e', tan_matches s e' /\ tan_shaped e' /\ e_start e' = st /\ e_end e' = en
    /\ snd (ext_y (tangent_ext mode own) s e x)
       = if i_contains (compute_interval s e') x then y_extension (tangent_ext mode own) s e' x else Ok None.
Proof.
  eapply (ext_y_outside (tangent_ext mode own) le ge tan_good tan_alike tan_shaped tan_matches).
  - exact tan_looks.
  - exact tan_matches_looks.
  - exact tan_init.
  - exact tan_update_ok.
  - intros a b (A & _). exact A.
  - exact tan_alike_matches.
Qed.

Theorem tan_value le ge st en s e q : tan_lives le ge st en s e -> iok (dom s) ->
  snd (ext_y (tangent_ext mode own) s e (Fin q)) =
    if i_contains (dom s) (Fin q) then c_y (s_c s) (Fin q)
    else if i_is_empty (dom s) then Ok None
    else if xq_leb (Fin q) (i_start (dom s))
         then (if st then through (tangent_edge mode own s true) (Fin q) else Ok None)
         else (if en then through (tangent_edge mode own s false) (Fin q) else Ok None).
Proof.
  intros L O. destruct (i_contains (dom s) (Fin q)) eqn:C; [ unfold ext_y; now rewrite C | ].
  destruct (tan_outside le ge st en s e (Fin q) L C) as (e' & (Ms & Me) & _ & A & B & ->).
  destruct (i_is_empty (dom s)) eqn:Em.
  { unfold y_extension. rewrite Em. destruct (i_contains (compute_interval s e') (Fin q)); reflexivity. }
  destruct (sides (dom s) q O Em C) as (S1 & S2 & S3).
  rewrite A in Ms. rewrite B in Me.
  assert (Hs : st = true -> (e_sv e' = true /\ exists f, e_sf e' = Some f /\ through (tangent_edge mode own s true) (Fin q) = Ok (Some (line_y f (Fin q))))
                       \/ (e_sv e' = false /\ through (tangent_edge mode own s true) (Fin q) = Ok None)).
  { intro St. specialize (Ms St). unfold side in Ms. unfold through.
    destruct (tangent_edge mode own s true) as [ [ [ x [ y | ] ] [ m | ] ] | ]; auto.
    left. destruct Ms as [ V Ef ]. split; [ exact V | ]. eexists. split; [ exact Ef | reflexivity ]. }
  assert (He : en = true -> (e_ev e' = true /\ exists f, e_ef e' = Some f /\ through (tangent_edge mode own s false) (Fin q) = Ok (Some (line_y f (Fin q))))
                       \/ (e_ev e' = false /\ through (tangent_edge mode own s false) (Fin q) = Ok None)).
  { intro St. specialize (Me St). unfold side in Me. unfold through.
    destruct (tangent_edge mode own s false) as [ [ [ x [ y | ] ] [ m | ] ] | ]; auto.
    left. destruct Me as [ V Ef ]. split; [ exact V | ]. eexists. split; [ exact Ef | reflexivity ]. }
  clear Ms Me.
  assert (X : forall i, i_contains (i_empty (T := xq)) i = false) by reflexivity.
  unfold compute_interval, y_extension. rewrite A, B, Em. unfold n_geb. cbn [n_leb XQ].
  destruct st, en; cbn [andb].
  - destruct (Hs eq_refl) as [ (Vs & f & Sf & ->) | (Vs & ->) ];
      destruct (He eq_refl) as [ (Ve & g & Sg & ->) | (Ve & ->) ]; rewrite Vs, Ve; cbn [andb].
    + rewrite all_contains, Sf, Sg. destruct (xq_leb (Fin q) (i_start (dom s))); [ reflexivity | ].
      symmetry in S3. apply negb_false_iff in S3. rewrite S3. reflexivity.
    + rewrite S1, Sf. destruct (xq_leb (Fin q) (i_start (dom s))); reflexivity.
    + rewrite S2, Sg, S3. destruct (xq_leb (i_end (dom s)) (Fin q)); reflexivity.
    + rewrite X. destruct (xq_leb (Fin q) (i_start (dom s))); reflexivity.
  - rewrite andb_false_r. destruct (Hs eq_refl) as [ (Vs & f & Sf & ->) | (Vs & ->) ]; rewrite Vs; cbn [andb].
    + rewrite S1, Sf. destruct (xq_leb (Fin q) (i_start (dom s))); reflexivity.
    + rewrite X. destruct (xq_leb (Fin q) (i_start (dom s))); reflexivity.
  - destruct (He eq_refl) as [ (Ve & g & Sg & ->) | (Ve & ->) ]; rewrite Ve; cbn [andb].
    + rewrite S2, Sg, S3. destruct (xq_leb (i_end (dom s)) (Fin q)); reflexivity.
    + rewrite X. destruct (xq_leb (Fin q) (i_start (dom s))); reflexivity.
  - rewrite X. destruct (xq_leb (Fin q) (i_start (dom s))); reflexivity.
Qed.
End Tangent.

(** ** Domains *)

Lemma hull_exact (a b c : ival xq) q : iok a -> iok b -> iok c ->
  (forall v, emem c v -> emem a v \/ emem b v) -> (forall v, emem a v -> emem c v) -> (forall v, emem b v -> emem c v) ->
  (i_contains (i_union [a; b]) (Fin q) = true <-> emem c (emb (Fin q))).
Proof.
  intros Oa Ob Oc C A B. unfold i_union, fold_left.
  assert (O1 : iok (i_union2 i_empty a)) by (apply iok_union2; auto; apply iok_empty).
  rewrite contains_e by (try apply iok_union2; auto; discriminate). split.
  - intro M. apply (superset_emem c (i_union2 (i_union2 i_empty a) b)); auto using iok_union2.
    apply union2_least; auto.
    + apply union2_least; auto using iok_empty. apply emem_superset; auto.
    + apply emem_superset; auto.
  - intro M. apply union2_cover; auto. destruct (C _ M) as [ X | X ]; [ left | auto ].
    apply union2_cover; auto. apply iok_empty.
Qed.

Lemma hull_lt (d : ival xq) q : iok d -> i_is_empty d = false -> i_is_negative_infinite d = false ->
  (i_contains (i_union [d; i_inter [i_infinite; i_get_lt d]]) (Fin q) = true
   <-> i_contains d (Fin q) = true \/ xq_leb (Fin q) (i_start d) = true).
Proof.
  intros O E NI. pose proof (iok_get_lt d O) as O1. pose proof iok_infinite as O2. pose proof O as [Oa Ob].
  assert (B : (- (1) < emb (i_start d) <= 1)%Q).
  { unfold i_is_negative_infinite in NI. revert NI Oa. destruct (i_start d) as [ x | | | ]; intros NI Oa.
    - pose proof (emb_fin_bound x). lra.
    - cbn. lra.
    - discriminate NI.
    - now elim Oa. }
  assert (B2 : (emb (i_end d) <= 1)%Q) by (destruct (i_end d) as [ x | | | ]; [ pose proof (emb_fin_bound x); lra | cbn; lra.. ]).
  change (i_inter [i_infinite; i_get_lt d]) with (i_inter2 i_infinite (i_get_lt d)).
  pose proof E as E'. apply is_empty_e_false in E'; [ | exact O ]. unfold eempty in E'.
  assert (M : forall v, emem (i_inter2 i_infinite (i_get_lt d)) v <->
                (-(1) < v /\ v < 1 /\ if i_so d then v <= emb (i_start d) else v < emb (i_start d))%Q).
  { intro v. rewrite inter2_emem by auto. unfold emem, i_get_lt, i_infinite. cbn -[emb].
    change (emb NInf) with (- (1))%Q. change (emb PInf) with 1%Q. destruct (i_so d); cbn [negb]; intuition lra. }
  assert (Oi : iok (i_inter2 i_infinite (i_get_lt d))) by now apply iok_inter2.
  rewrite (hull_exact d _ (mkI NInf (i_end d) true (i_eo d)) q); auto.
  - rewrite contains_e by (auto; discriminate). rewrite xq_leb_emb by (auto; discriminate).
    pose proof (emb_fin_bound q). unfold emem. cbn [i_start i_end i_so i_eo]. change (emb NInf) with (- (1))%Q.
    destruct (i_so d), (i_eo d); intuition (try lra);
    destruct (Qlt_le_dec (emb (Fin q)) (emb (i_start d))); intuition (try lra).
    all: destruct (Qlt_le_dec (emb (i_start d)) (emb (Fin q))); intuition (try lra).
  - split; [ discriminate | exact Ob ].
  - intros v. rewrite M. unfold emem. cbn [i_start i_end i_so i_eo]. change (emb NInf) with (- (1))%Q.
    destruct (Qlt_le_dec v (emb (i_start d))), (Qlt_le_dec (emb (i_start d)) v), (i_so d), (i_eo d); intuition lra.
  - intros v. unfold emem. cbn [i_start i_end i_so i_eo]. change (emb NInf) with (- (1))%Q.
    destruct (i_so d), (i_eo d); intuition lra.
  - intros v. rewrite M. unfold emem. cbn [i_start i_end i_so i_eo]. change (emb NInf) with (- (1))%Q.
    destruct (i_so d), (i_eo d); intuition lra.
Qed.

Lemma hull_gt (d : ival xq) q : iok d -> i_is_empty d = false -> i_is_positive_infinite d = false ->
  (i_contains (i_union [d; i_inter [i_infinite; i_get_gt d]]) (Fin q) = true
   <-> i_contains d (Fin q) = true \/ xq_leb (i_end d) (Fin q) = true).
Proof.
  intros O E NI. pose proof (iok_get_gt d O) as O1. pose proof iok_infinite as O2. pose proof O as [Oa Ob].
  assert (B : (- (1) <= emb (i_end d) < 1)%Q).
  { unfold i_is_positive_infinite in NI. revert NI Ob. destruct (i_end d) as [ x | | | ]; intros NI Ob.
    - pose proof (emb_fin_bound x). lra.
    - discriminate NI.
    - cbn. lra.
    - now elim Ob. }
  assert (B2 : (- (1) <= emb (i_start d))%Q) by (destruct (i_start d) as [ x | | | ]; [ pose proof (emb_fin_bound x); lra | cbn; lra.. ]).
  change (i_inter [i_infinite; i_get_gt d]) with (i_inter2 i_infinite (i_get_gt d)).
  pose proof E as E'. apply is_empty_e_false in E'; [ | exact O ]. unfold eempty in E'.
  assert (M : forall v, emem (i_inter2 i_infinite (i_get_gt d)) v <->
                (-(1) < v /\ v < 1 /\ if i_eo d then emb (i_end d) <= v else emb (i_end d) < v)%Q).
  { intro v. rewrite inter2_emem by auto. unfold emem, i_get_gt, i_infinite. cbn -[emb].
    change (emb NInf) with (- (1))%Q. change (emb PInf) with 1%Q. destruct (i_eo d); cbn [negb]; intuition lra. }
  assert (Oi : iok (i_inter2 i_infinite (i_get_gt d))) by now apply iok_inter2.
  rewrite (hull_exact d _ (mkI (i_start d) PInf (i_so d) true) q); auto.
  - rewrite contains_e by (auto; discriminate). rewrite xq_leb_emb by (auto; discriminate).
    pose proof (emb_fin_bound q). unfold emem. cbn [i_start i_end i_so i_eo]. change (emb PInf) with 1%Q.
    destruct (i_so d), (i_eo d); intuition (try lra);
    destruct (Qlt_le_dec (emb (i_end d)) (emb (Fin q))); intuition (try lra).
    all: destruct (Qlt_le_dec (emb (Fin q)) (emb (i_end d))); intuition (try lra).
  - split; [ exact Oa | discriminate ].
  - intros v. rewrite M. unfold emem. cbn [i_start i_end i_so i_eo]. change (emb PInf) with 1%Q.
    destruct (Qlt_le_dec v (emb (i_end d))), (Qlt_le_dec (emb (i_end d)) v), (i_so d), (i_eo d); intuition lra.
  - intros v. unfold emem. cbn [i_start i_end i_so i_eo]. change (emb PInf) with 1%Q.
    destruct (i_so d), (i_eo d); intuition lra.
  - intros v. rewrite M. unfold emem. cbn [i_start i_end i_so i_eo]. change (emb PInf) with 1%Q.
    destruct (i_so d), (i_eo d); intuition lra.
Qed.

Definition before (d : ival xq) (q : Qc) : bool := negb (i_contains d (Fin q)) && xq_leb (Fin q) (i_start d).
Definition after (d : ival xq) (q : Qc) : bool := negb (i_contains d (Fin q)) && xq_leb (i_end d) (Fin q).

Lemma dom_exact {F} s (e : ext xq F) q : iok (dom s) -> i_is_empty (dom s) = false ->
  (e_start e = true -> i_is_negative_infinite (dom s) = false) ->
  (e_end e = true -> i_is_positive_infinite (dom s) = false) ->
  i_contains (i_union [dom s; compute_interval s e]) (Fin q)
  = i_contains (dom s) (Fin q) || (e_start e && e_sv e && before (dom s) q) || (e_end e && e_ev e && after (dom s) q).
Proof.
  intros O E Hs He.
  assert (X : forall b b' : bool, (b = true <-> b' = true) -> b = b') by (intros [|] [|]; intuition congruence).
  assert (Y : forall b c : bool, b || negb b && c = b || c) by (intros [|] [|]; reflexivity).
  assert (Cc : compute_interval s e = if (e_start e && e_sv e) && (e_end e && e_ev e) then i_union [i_infinite; i_infinite]
    else if e_start e && e_sv e then i_inter [i_infinite; i_get_lt (dom s)]
    else if e_end e && e_ev e then i_inter [i_infinite; i_get_gt (dom s)] else i_empty)
    by (unfold compute_interval; now rewrite !andb_assoc).
  rewrite Cc. clear Cc. unfold before, after.
  assert (Hs' : e_start e && e_sv e = true -> i_is_negative_infinite (dom s) = false)
    by (intro A; apply andb_true_iff in A; now apply Hs).
  assert (He' : e_end e && e_ev e = true -> i_is_positive_infinite (dom s) = false)
    by (intro A; apply andb_true_iff in A; now apply He).
  destruct (e_start e && e_sv e), (e_end e && e_ev e); cbn [andb]; rewrite ?orb_false_r, ?Y.
  - replace (i_contains (i_union [dom s; _]) (Fin q)) with true.
    + destruct (i_contains (dom s) (Fin q)) eqn:C; [ reflexivity | ]. cbn [negb andb orb].
      destruct (sides (dom s) q O E C) as (_ & _ & ->). now destruct (xq_leb (i_end (dom s)) (Fin q)).
    + symmetry. assert (Ou : iok (i_union [i_infinite (T := xq); i_infinite])) by (split; discriminate).
      assert (O1 : iok (i_union2 i_empty (dom s))) by (apply iok_union2; auto; apply iok_empty).
      change (i_union [dom s; i_union [i_infinite; i_infinite]])
        with (i_union2 (i_union2 i_empty (dom s)) (i_union [i_infinite; i_infinite])).
      rewrite contains_e by (try apply iok_union2; auto; discriminate).
      apply union2_cover; auto. right. apply contains_e; [ auto | discriminate | apply all_contains ].
  - apply X. rewrite orb_true_iff. apply hull_lt; auto.
  - apply X. rewrite orb_true_iff. apply hull_gt; auto.
  - change (i_union [dom s; i_empty]) with (i_union2 (i_union2 i_empty (dom s)) i_empty).
    rewrite union2_empty_l by auto. unfold i_union2. rewrite E. reflexivity.
Qed.

Lemma ext_dom_first {F} (K : kind xq F) (good : src xq -> bool -> bool -> Prop) (shaped : ext xq F -> Prop)
    (matches : src xq -> ext xq F -> Prop) s st en :
  (forall e e', looks e e' -> shaped e -> shaped e') ->
  (forall s e e', looks e e' -> matches s e -> matches s e') ->
  (forall s st en, shaped (ext_init K s st en false)) ->
  (forall s e, shaped e -> good s (e_start e) (e_end e) ->
     exists e' evs, k_update K s e = (e', evs, Ok tt) /\ frame e e' /\ shaped e' /\ matches s e') ->
  let e0 := ext_init K s st en false in
  good s (e_start e0) (e_end e0) ->
  exists e1, snd (ext_dom K s e0) = Ok (i_union [dom s; compute_interval s e1]) /\ shaped e1 /\ matches s e1
    /\ e_start e1 = e_start e0 /\ e_end e1 = e_end e0.
Proof.
  intros h1 h2 h3 h4 e0 G.
  assert (Iv : inv shaped matches s e0).
  { split; [ apply h3 | ]. split; [ reflexivity | discriminate ]. }
  destruct (update_interval_ok K good shaped matches h1 h2 h4 s e0 Iv G) as (e1 & evs & U & I1 & A & B & C & _).
  destruct (C eq_refl) as [[ M Ei ] _ ]. exists e1.
  unfold ext_dom. change (u_dom (e_upd e0)) with (@None (ival xq)). rewrite U. cbn [snd]. rewrite Ei.
  split; [ reflexivity | ]. split; [ apply I1 | ]. auto.
Qed.

Lemma init_sides {F} (K : kind xq F) s st en r : let e0 := ext_init K s st en r in
  (e_start e0 = true -> i_is_negative_infinite (dom s) = false) /\ (e_end e0 = true -> i_is_positive_infinite (dom s) = false).
Proof.
  cbn. destruct (i_is_negative_infinite (dom s)), (i_is_positive_infinite (dom s)); split; auto; discriminate.
Qed.

(** A new constant extension covers its source and the sides asked for. *)
Theorem const_domain s st en : let e0 := ext_init constant_ext s st en false in
  iok (dom s) -> i_is_empty (dom s) = false -> const_good s (e_start e0) (e_end e0) ->
  exists d, snd (ext_dom constant_ext s e0) = Ok d /\ forall q,
    i_contains d (Fin q) = i_contains (dom s) (Fin q) || (st && before (dom s) q) || (en && after (dom s) q).
Proof.
  intros e0 O E G.
  destruct (ext_dom_first constant_ext const_good const_shaped const_matches s st en const_looks const_matches_looks const_init const_update_ok G)
    as (e1 & D & (Sv & Ev & _) & _ & A & B).
  exists (i_union [dom s; compute_interval s e1]). split; [ exact D | ]. intro q.
  destruct (init_sides constant_ext s st en false) as [ Is Ie ]. fold e0 in Is, Ie.
  rewrite dom_exact; [ | exact O | exact E | rewrite A; exact Is | rewrite B; exact Ie ]. rewrite A, B, Sv, Ev, !andb_true_r. subst e0. cbn [ext_init e_start e_end].
  unfold before, after. destruct (i_contains (dom s) (Fin q)) eqn:C; [ reflexivity | ].
  assert (Z1 : i_is_negative_infinite (dom s) = true -> xq_leb (Fin q) (i_start (dom s)) = false).
  { unfold i_is_negative_infinite. destruct (i_start (dom s)); cbn; auto; discriminate. }
  assert (Z2 : i_is_positive_infinite (dom s) = true -> xq_leb (i_end (dom s)) (Fin q) = false).
  { unfold i_is_positive_infinite. destruct (i_end (dom s)); cbn; auto; discriminate. }
  destruct (i_is_negative_infinite (dom s)), (i_is_positive_infinite (dom s));
    rewrite ?Z1, ?Z2 by reflexivity; cbn; rewrite ?andb_false_r; reflexivity.
Qed.

(** A new tangent extension covers its source and those of the sides asked
    for that have a tangent. *)
Definition has_line (edge : res (xq * option xq * option xq)) : bool :=
  match edge with Ok (_, Some _, Some _) => true | _ => false end.
Theorem tan_domain mode own s st en : let e0 := ext_init (tangent_ext mode own) s st en false in
  iok (dom s) -> i_is_empty (dom s) = false -> tan_good mode own s (e_start e0) (e_end e0) ->
  exists d, snd (ext_dom (tangent_ext mode own) s e0) = Ok d /\ forall q,
    i_contains d (Fin q) = i_contains (dom s) (Fin q)
      || (st && has_line (tangent_edge mode own s true) && before (dom s) q)
      || (en && has_line (tangent_edge mode own s false) && after (dom s) q).
Proof.
  intros e0 O E G.
  destruct (ext_dom_first (tangent_ext mode own) (tan_good mode own) tan_shaped (tan_matches mode own) s st en
    tan_looks (tan_matches_looks mode own) (tan_init mode own) (tan_update_ok mode own) G)
    as (e1 & D & _ & (Ms & Me) & A & B).
  exists (i_union [dom s; compute_interval s e1]). split; [ exact D | ]. intro q.
  destruct (init_sides (tangent_ext mode own) s st en false) as [ Is Ie ]. fold e0 in Is, Ie.
  rewrite dom_exact; [ | exact O | exact E | rewrite A; exact Is | rewrite B; exact Ie ].
  replace (e_start e1 && e_sv e1) with (e_start e1 && has_line (tangent_edge mode own s true)).
  2: { destruct (e_start e1); [ | reflexivity ]. specialize (Ms eq_refl). unfold side in Ms. unfold has_line.
       destruct (tangent_edge mode own s true) as [[[ x [ y | ]] [ m | ]] | ]; try (now rewrite Ms).
       destruct Ms as [ -> _ ]. reflexivity. }
  replace (e_end e1 && e_ev e1) with (e_end e1 && has_line (tangent_edge mode own s false)).
  2: { destruct (e_end e1); [ | reflexivity ]. specialize (Me eq_refl). unfold side in Me. unfold has_line.
       destruct (tangent_edge mode own s false) as [[[ x [ y | ]] [ m | ]] | ]; try (now rewrite Me).
       destruct Me as [ -> _ ]. reflexivity. }
  rewrite A, B. subst e0. cbn [ext_init e_start e_end].
  unfold before, after. destruct (i_contains (dom s) (Fin q)) eqn:C; [ reflexivity | ].
  assert (Z1 : i_is_negative_infinite (dom s) = true -> xq_leb (Fin q) (i_start (dom s)) = false).
  { unfold i_is_negative_infinite. destruct (i_start (dom s)); cbn; auto; discriminate. }
  assert (Z2 : i_is_positive_infinite (dom s) = true -> xq_leb (i_end (dom s)) (Fin q) = false).
  { unfold i_is_positive_infinite. destruct (i_end (dom s)); cbn; auto; discriminate. }
  destruct (i_is_negative_infinite (dom s)), (i_is_positive_infinite (dom s));
    rewrite ?Z1, ?Z2 by reflexivity; cbn; rewrite ?andb_false_r; reflexivity.
Qed.
