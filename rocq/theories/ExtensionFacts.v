(** Facts about the extension state machine, for any kind of extension. *)
From Coq Require Import List ZArith Bool Lia QArith Qcanon.
From Verif Require Import Base Num NumFacts Interval IntervalFacts Curve Combine Extension.
Import ListNotations.
Open Scope num_scope.
Open Scope bool_scope.

Section Any.
Context {F : Type}.
Variable K : kind xq F.
Variables le ge : ival xq -> ival xq -> bool.
(** [good s st en]: the source can be extended on the sides [st], [en];
    [alike s s']: the two sources have the same edges. *)
Variable good : src xq -> bool -> bool -> Prop.
Variable alike : src xq -> src xq -> Prop.

(** The life of an extension whose effective sides are [st] and [en]: it is
    constructed over a source; values and domains are asked for; source
    updates begin, and end with a changed source, each of them either
    recognised as touching the extension or leaving the edges as they were. *)
Inductive lives : bool -> bool -> src xq -> ext xq F -> Prop :=
  | lv_init s st en :
      let st' := if i_is_negative_infinite (c_dom (s_c s)) then false else st in
      let en' := if i_is_positive_infinite (c_dom (s_c s)) then false else en in
      good s st' en' -> lives st' en' s (ext_init K s st en false)
  | lv_y st en s e x : lives st en s e -> lives st en s (fst (fst (ext_y K s e x)))
  | lv_dom st en s e : lives st en s e -> lives st en s (fst (fst (ext_dom K s e)))
  | lv_begin st en s e d : lives st en s e -> lives st en s (fst (ext_begin le ge e d))
  | lv_end st en s s' e d : lives st en s e -> good s' st en ->
      in_extension le ge e d = true \/ alike s s' ->
      lives st en s' (fst (fst (ext_end K le ge s' e d))).

(** [shaped]: the objects that exist; [matches]: the functions belong to the
    source.  Both look only at the functions, the sides and their validity. *)
Variable shaped : ext xq F -> Prop.
Variable matches : src xq -> ext xq F -> Prop.
Definition looks (e e' : ext xq F) : Prop :=
  e_start e' = e_start e /\ e_end e' = e_end e /\ e_sv e' = e_sv e /\ e_ev e' = e_ev e
  /\ e_sf e' = e_sf e /\ e_ef e' = e_ef e.
Definition frame (e e' : ext xq F) : Prop :=
  e_start e' = e_start e /\ e_end e' = e_end e /\ e_raise e' = e_raise e /\ e_int e' = e_int e
  /\ e_stale e' = e_stale e /\ e_istale e' = e_istale e.
Hypothesis shaped_looks : forall e e', looks e e' -> shaped e -> shaped e'.
Hypothesis matches_looks : forall s e e', looks e e' -> matches s e -> matches s e'.
Hypothesis shaped_init : forall s st en, shaped (ext_init K s st en false).
Hypothesis upd_ok : forall s e, shaped e -> good s (e_start e) (e_end e) ->
  exists e' evs, k_update K s e = (e', evs, Ok tt) /\ frame e e' /\ shaped e' /\ matches s e'.
Hypothesis alike_dom : forall s s', alike s s' -> c_dom (s_c s') = c_dom (s_c s).
Hypothesis alike_matches : forall s s' e, alike s s' -> good s' (e_start e) (e_end e) ->
  matches s e -> matches s' e.

Definition current (s : src xq) (e : ext xq F) : Prop :=
  matches s e /\ e_int e = compute_interval s e.
Definition inv (s : src xq) (e : ext xq F) : Prop :=
  shaped e /\ e_raise e = false /\ (e_stale e = false -> current s e).

Lemma compute_looks s (e e' : ext xq F) : looks e e' -> compute_interval s e' = compute_interval s e.
Proof. intros (A & B & C & D & _). unfold compute_interval. now rewrite A, B, C, D. Qed.

Lemma current_looks s e e' : looks e e' -> e_int e' = e_int e -> current s e -> current s e'.
Proof.
  intros L I [M C]. split; [ now apply (matches_looks s e) | ].
  now rewrite I, C, (compute_looks s e e' L).
Qed.

Lemma unable_false (e : ext xq F) : e_raise e = false -> unable e = false.
Proof. intro R. unfold unable. rewrite R. apply andb_false_r. Qed.

Lemma update_if_needed_ok s e : inv s e -> good s (e_start e) (e_end e) ->
  exists e' evs, update_if_needed K s e = (e', evs, Ok tt) /\ inv s e' /\ current s e'
    /\ e_stale e' = false /\ e_start e' = e_start e /\ e_end e' = e_end e
    /\ (e_stale e = true -> e_istale e' = false).
Proof.
  intros (Sh & R & C) G. unfold update_if_needed.
  destruct (e_stale e) eqn:St; cbn [negb].
  2: { exists e, []. specialize (C eq_refl). split; [ reflexivity | ]. split; [ exact (conj Sh (conj R (fun _ => C))) | ].
       split; [ exact C | ]. repeat split; auto; discriminate. }
  destruct (upd_ok s (set_istale (set_stale e false) true)) as (e1 & evs & U & Fr & S1 & M1).
  { apply (shaped_looks e); [ repeat split | exact Sh ]. }
  { exact G. }
  rewrite U. destruct Fr as (A1 & A2 & A3 & A4 & A5 & A6). cbn in A1, A2, A3, A4, A5, A6.
  rewrite unable_false by (rewrite A3; exact R). rewrite A6. cbn [negb].
  unfold refresh_interval. rewrite unable_false by (cbn; rewrite A3; exact R).
  eexists. exists evs. split; [ reflexivity | ].
  assert (Cu : current s (set_int (set_istale e1 false) (compute_interval s (set_istale e1 false)))).
  { split; [ apply (matches_looks s e1); [ repeat split | exact M1 ] | reflexivity ]. }
  split; [ split; [ | split; [ cbn; congruence | intros _; exact Cu ] ] | ].
  - apply (shaped_looks e1); [ repeat split | exact S1 ].
  - split; [ exact Cu | ]. cbn. auto.
Qed.

Lemma update_interval_ok s e : inv s e -> good s (e_start e) (e_end e) ->
  exists e' evs, update_interval K s e = (e', evs, Ok tt) /\ inv s e'
    /\ e_start e' = e_start e /\ e_end e' = e_end e
    /\ (e_istale e = true -> current s e' /\ e_stale e' = false)
    /\ (e_istale e = false -> e' = e).
Proof.
  intros Iv G. pose proof Iv as (Sh & R & C). unfold update_interval.
  destruct (e_istale e) eqn:Ist; cbn [negb].
  2: { exists e, []. split; [ reflexivity | ]. split; [ exact Iv | ]. repeat split; auto; discriminate. }
  assert (I1 : inv s (set_istale e false)).
  { split; [ apply (shaped_looks e); [ repeat split | exact Sh ] | ]. split; [ exact R | ].
    intro St. apply (current_looks s e); [ repeat split | reflexivity | apply C; exact St ]. }
  assert (X : exists e1 evs, (if e_stale (set_istale e false) then update_if_needed K s (set_istale e false)
                 else (set_istale e false, [], Ok tt)) = (e1, evs, Ok tt)
              /\ inv s e1 /\ current s e1 /\ e_stale e1 = false /\ e_start e1 = e_start e /\ e_end e1 = e_end e).
  { destruct (e_stale (set_istale e false)) eqn:St.
    - destruct (update_if_needed_ok s (set_istale e false) I1 G) as (e1 & evs & U & I2 & C2 & S2 & A & B & _).
      exists e1, evs. auto 10.
    - exists (set_istale e false), []. split; [ reflexivity | ]. split; [ exact I1 | ].
      split; [ apply I1; exact St | ]. auto. }
  destruct X as (e1 & evs & U & I2 & [M2 C2] & S2 & A & B). rewrite U.
  unfold refresh_interval. rewrite unable_false by (cbn; apply I2).
  eexists. exists evs. split; [ reflexivity | ].
  assert (Cu : current s (set_int e1 (compute_interval s e1))).
  { split; [ apply (matches_looks s e1); [ repeat split | exact M2 ] | reflexivity ]. }
  destruct I2 as (Sh2 & R2 & _).
  split; [ split; [ apply (shaped_looks e1); [ repeat split | exact Sh2 ] | split; [ exact R2 | intros _; exact Cu ] ] | ].
  cbn. split; [ exact A | ]. split; [ exact B | ]. split; [ intros _; split; [ exact Cu | exact S2 ] | discriminate ].
Qed.

Lemma inv_upd s e u : inv s e -> inv s (set_eupd e u).
Proof.
  intros (Sh & R & C). split; [ apply (shaped_looks e); [ repeat split | exact Sh ] | ].
  split; [ exact R | ]. intro St. apply (current_looks s e); [ repeat split | reflexivity | apply C; exact St ].
Qed.

Lemma ext_dom_ok s e : inv s e -> good s (e_start e) (e_end e) ->
  exists e' evs d, ext_dom K s e = (e', evs, Ok d) /\ inv s e' /\ e_start e' = e_start e /\ e_end e' = e_end e.
Proof.
  intros Iv G. unfold ext_dom. destruct (u_dom (e_upd e)) as [ d | ].
  - exists e, [], d. auto.
  - destruct (update_interval_ok s e Iv G) as (e1 & evs & U & I1 & A & B & _). rewrite U.
    eexists. exists evs. eexists. split; [ reflexivity | ]. split; [ now apply inv_upd | ]. auto.
Qed.

Lemma ext_y_inv s e x : inv s e -> good s (e_start e) (e_end e) ->
  inv s (fst (fst (ext_y K s e x))) /\ e_start (fst (fst (ext_y K s e x))) = e_start e
  /\ e_end (fst (fst (ext_y K s e x))) = e_end e.
Proof.
  intros Iv G. unfold ext_y. destruct (i_contains (c_dom (s_c s)) x); [ auto | ].
  destruct (update_if_needed_ok s e Iv G) as (e1 & evs & U & I1 & _ & _ & A & B & _). rewrite U. auto.
Qed.

Lemma ext_begin_inv s e d : inv s e -> inv s (fst (ext_begin le ge e d)).
Proof.
  intro Iv. unfold ext_begin. destruct (begin_update (e_upd e) _) as [ u n ]. now apply inv_upd.
Qed.

Lemma ext_end_ok s s' e d : inv s e -> good s' (e_start e) (e_end e) ->
  in_extension le ge e d = true \/ alike s s' ->
  exists e' evs, ext_end K le ge s' e d = (e', evs, Ok tt) /\ inv s' e'
    /\ e_start e' = e_start e /\ e_end e' = e_end e.
Proof.
  intros (Sh & R & C) G T. unfold ext_end. destruct (in_extension le ge e d) eqn:In.
  - assert (I1 : inv s' (set_stale e true)).
    { split; [ apply (shaped_looks e); [ repeat split | exact Sh ] | ]. split; [ exact R | discriminate ]. }
    destruct (update_interval_ok s' _ I1 G) as (e1 & evs & U & I2 & A & B & _). rewrite U.
    destruct (end_update (e_upd e1) (e_int e1)) as [ u n ].
    eexists. eexists. split; [ reflexivity | ]. split; [ now apply inv_upd | ]. auto.
  - destruct T as [ T | T ]; [ discriminate | ].
    destruct (end_update (e_upd e) d) as [ u n ]. eexists. eexists. split; [ reflexivity | ].
    split; [ | auto ]. apply inv_upd. split; [ exact Sh | ]. split; [ exact R | ].
    intro St. destruct (C St) as [ M I ]. split; [ now apply (alike_matches s) | ].
    rewrite I. unfold compute_interval. now rewrite (alike_dom s s' T).
Qed.

Lemma lives_inv st en s e : lives st en s e ->
  inv s e /\ good s st en /\ e_start e = st /\ e_end e = en.
Proof.
  induction 1 as [ s st en st' en' G | st en s e x L (Iv & G & A & B) | st en s e L (Iv & G & A & B)
                 | st en s e d L (Iv & G & A & B) | st en s s' e d L (Iv & G & A & B) G' T ].
  - split; [ | auto ]. split; [ apply shaped_init | ]. split; [ reflexivity | discriminate ].
  - pose proof (ext_y_inv s e x Iv) as Y. rewrite A, B in Y. destruct (Y G) as (Y1 & Y2 & Y3). auto.
  - pose proof (ext_dom_ok s e Iv) as Y. rewrite A, B in Y. destruct (Y G) as (e1 & evs & d & D & I1 & P & Q).
    rewrite D. auto.
  - split; [ now apply ext_begin_inv | ]. split; [ exact G | ].
    unfold ext_begin. destruct (begin_update (e_upd e) _) as [ u n ]. auto.
  - pose proof (ext_end_ok s s' e d Iv) as Y. rewrite A, B in Y. destruct (Y G' T) as (e1 & evs & D & I1 & P & Q).
    rewrite D. auto.
Qed.

(** Inside, the source; outside, the refreshed extension. *)
Lemma ext_y_inside s e x : i_contains (c_dom (s_c s)) x = true -> snd (ext_y K s e x) = c_y (s_c s) x.
Proof. intro C. unfold ext_y. now rewrite C. Qed.

Lemma ext_y_outside st en s e x : lives st en s e -> i_contains (c_dom (s_c s)) x = false ->
  exists e', matches s e' /\ shaped e' /\ e_start e' = st /\ e_end e' = en
    /\ snd (ext_y K s e x) = if i_contains (compute_interval s e') x then y_extension K s e' x else Ok None.
Proof.
  intros L C. destruct (lives_inv st en s e L) as (Iv & G & A & B). unfold ext_y. rewrite C.
  pose proof (update_if_needed_ok s e Iv) as Y. rewrite A, B in Y.
  destruct (Y G) as (e1 & evs & U & I1 & (M & Ei) & _ & P & Q & _). rewrite U.
  exists e1. rewrite <- Ei. split; [ exact M | ]. split; [ apply I1 | ]. auto.
Qed.
End Any.
