(** Aggregate and Map curves with a state answer like those without: over any
    sources, whose domains may differ. *)
From Coq Require Import List ZArith Bool.
From Verif Require Import Base Num Interval Curve Points Combine Scan Graph Tower Weave.
Import ListNotations.

Section Mirror.
Context {T : Type} {N : Num T}.
Notation V := (option T).
Notation gst := (Weave.gst T).
(** in the states [I], which questions do not leave, [s] answers like [c] *)
Record mirrors (I : gst -> Prop) (s : scrv T gst) (c : crv T V) : Prop := {
  mr_dom : forall g, I g -> I (fst (sc_dom s g)) /\ snd (sc_dom s g) = Ok (c_dom c);
  mr_y : forall x g, I g -> I (fst (sc_y s x g)) /\ snd (sc_y s x g) = c_y c x;
  mr_next : forall x ms lim g, I g -> I (fst (sc_next s x ms lim g)) /\ snd (sc_next s x ms lim g) = c_next c x ms lim;
  mr_prev : forall x ms lim g, I g -> I (fst (sc_prev s x ms lim g)) /\ snd (sc_prev s x ms lim g) = c_prev c x ms lim }.
(** the state after the domain [d] has been kept *)
Definition keep (g : gst) (j : nat) (d : ival T) : gst :=
  put g j (set_aupd (acc_at g j) (mkU (u_begin (a_upd (acc_at g j))) (u_end (a_upd (acc_at g j))) (Some d))).
(** curve [j] has no domain in its cache, or the right one *)
Definition caches (I : gst -> Prop) (j : nat) (d : ival T) : Prop :=
  forall g, I g -> (u_dom (a_upd (acc_at g j)) = None /\ I (keep g j d)) \/ u_dom (a_upd (acc_at g j)) = Some d.

Lemma base_mirrors I c : mirrors I (fst (w_base c)) c.
Proof. constructor; intros; split; auto. Qed.
Lemma smap_mirrors {A B C} (I : gst -> Prop) (R : A -> C -> Prop) (f : A -> sr gst B) (e : C -> res B) :
  (forall s c, R s c -> forall g, I g -> I (fst (f s g)) /\ snd (f s g) = e c) ->
  forall ss cs, Forall2 R ss cs -> forall g, I g -> I (fst (smapM f ss g)) /\ snd (smapM f ss g) = rmapM e cs.
Proof.
  intros H ss cs F. induction F as [|s c ss cs P F IH]; intros g Ig; cbn [smapM rmapM]; [split; [exact Ig|reflexivity]|].
  unfold sbind. destruct (H s c P g Ig) as [I1 E1]. destruct (f s g) as [g1 r1]. cbn [fst snd] in *. subst r1. destruct (e c) as [b|er]; cbn [rbind]; [|split; [exact I1|reflexivity]].
  destruct (IH g1 I1) as [I2 E2]. destruct (smapM f ss g1) as [g2 r2]. cbn [fst snd] in *. subst r2. destruct (rmapM e cs); cbn; auto.
Qed.
Lemma all_ok {A B} (f : A -> B) l : rmapM (fun c => Ok (f c)) l = Ok (map f l).
Proof. induction l as [|a l IH]; cbn [rmapM map]; [reflexivity|]. rewrite IH. reflexivity. Qed.

Lemma put_same : forall (g : gst) j, put g j (acc_at g j) = g.
Proof. induction g as [|b g IH]; intros [|j]; try reflexivity. cbn [put]. f_equal. apply IH. Qed.

Lemma agg_mirrors I j un dflt tfm ss cs : Forall2 (mirrors I) ss cs -> caches I j (agg_dom un cs) ->
  mirrors I (fst (w_agg j un dflt tfm ss)) (aggregate un dflt tfm cs).
Proof.
  intros F K.
  assert (D : forall g, I g -> I (fst (w_agg_dom j un ss g)) /\ snd (w_agg_dom j un ss g) = Ok (agg_dom un cs)).
  { intros g Ig. unfold w_agg_dom. destruct (K g Ig) as [[E _]|E]; rewrite E; [|split; [exact Ig|reflexivity]].
    destruct (smap_mirrors I (mirrors I) sc_dom (fun c => Ok (c_dom c)) (fun s c M => mr_dom I s c M) ss cs F g Ig) as [I1 E1]. rewrite all_ok in E1.
    unfold sbind. destruct (smapM sc_dom ss g) as [g1 r1]. cbn [fst snd] in *. subst r1.
    cbv beta zeta. unfold acc_dom. change (if un then i_union (map c_dom cs) else i_inter (map c_dom cs)) with (agg_dom un cs). destruct (K g1 I1) as [[E2 I2]|E2]; rewrite E2; cbn [fst snd].
    - split; [exact I2|reflexivity].
    - split; [|reflexivity]. rewrite put_same. exact I1. }
  constructor; cbn [w_agg fst sc_dom sc_y sc_next sc_prev aggregate c_dom c_y c_next c_prev].
  - exact D.
  - intros x g Ig. unfold sbind at 1 3. destruct (D g Ig) as [I1 E1]. destruct (w_agg_dom j un ss g) as [g1 r1]. cbn [fst snd] in *. subst r1.
    destruct (negb (i_contains (agg_dom un cs) x)); [split; [exact I1|reflexivity]|].
    destruct (smap_mirrors I (mirrors I) (fun c => sc_y c x) (fun c => c_y c x) (fun s c M => mr_y I s c M x) ss cs F g1 I1) as [I2 E2].
    unfold sbind. destruct (smapM _ ss g1) as [g2 r2]. cbn [fst snd] in *. subst r2. destruct (rmapM _ cs); cbn; auto.
  - intros x ms lim g Ig. destruct (smap_mirrors I (mirrors I) (fun c => sc_next c x ms lim) (fun c => c_next c x ms lim) (fun s c M => mr_next I s c M x ms lim) ss cs F g Ig) as [I2 E2].
    unfold sbind. destruct (smapM _ ss g) as [g2 r2]. cbn [fst snd] in *. subst r2. destruct (rmapM _ cs); cbn; auto.
  - intros x ms lim g Ig. destruct (smap_mirrors I (mirrors I) (fun c => sc_prev c x ms lim) (fun c => c_prev c x ms lim) (fun s c M => mr_prev I s c M x ms lim) ss cs F g Ig) as [I2 E2].
    unfold sbind. destruct (smapM _ ss g) as [g2 r2]. cbn [fst snd] in *. subst r2. destruct (rmapM _ cs); cbn; auto.
Qed.

Lemma map_mirrors I j skip param (tfm : T -> V -> res V) s c : mirrors I s c -> caches I j (c_dom c) ->
  (forall g, I g -> acc_at (fst (sc_dom s g)) j = acc_at g j) ->
  mirrors I (fst (w_map j skip (Some (map_min_step param (c_ms c))) tfm s)) (map_curve skip param tfm c).
Proof.
  intros M K P. constructor; cbn [w_map fst sc_dom sc_y sc_next sc_prev map_curve c_dom c_y c_next c_prev].
  - intros g Ig. unfold at_node, st_dom. cbn [snd fst]. destruct (u_dom (a_upd (acc_at g j))) as [d|] eqn:E.
    + destruct (K g Ig) as [[E' _]|E']; [congruence|]. cbn [fst snd]. rewrite put_same. split; [exact Ig|congruence].
    + unfold sbind, of_src. cbn [fst snd]. destruct (mr_dom I s c M g Ig) as [I1 E1]. pose proof (P g Ig) as PG. destruct (sc_dom s g) as [g1 r1]. cbn [fst snd] in *. subst r1. unfold of_acc. cbn [fst snd].
      unfold acc_dom. rewrite E. cbn [fst snd]. split; [|reflexivity]. destruct (K g1 I1) as [[_ I2]|E2]; [unfold keep in I2; rewrite PG in I2; exact I2|]. rewrite PG in E2. congruence.
  - intros x g Ig. unfold sbind. destruct (mr_y I s c M x g Ig) as [I1 E1]. destruct (sc_y s x g) as [g1 r1]. cbn [fst snd] in *. subst r1.
    destruct (c_y c x) as [[v|]|er]; cbn [rbind]; [rewrite andb_false_r|rewrite andb_true_r; destruct skip|]; cbn; auto.
  - intros x ms lim g Ig. apply (mr_next I s c M); exact Ig.
  - intros x ms lim g Ig. apply (mr_prev I s c M); exact Ig.
Qed.
End Mirror.

(** two sources whose domains overlap, read by curve 0 *)
From Verif Require Import NumFacts PointsDec.
Definition left_c : crv xq (option xq) := p_crv (fst (fst (p_init [(fz 0, Some (fz 1)); (fz 1, Some (fz 2)); (fz 2, Some (fz 3))] ILinear true))).
Definition right_c : crv xq (option xq) := p_crv (fst (fst (p_init [(fz 1, Some (fz 10)); (fz 2, Some (fz 20)); (fz 3, Some (fz 30))] ILinear true))).
Definition cached (d : ival xq) (g : Weave.gst xq) : Prop := exists u, g = [u] /\ (u_dom (a_upd u) = None \/ u_dom (a_upd u) = Some d).
Lemma cached_caches d : caches (cached d) 0 d.
Proof. intros g (u & -> & [E|E]); [left|right]; cbn; auto. split; [exact E|]. eexists. split; [reflexivity|]. right. reflexivity. Qed.
Lemma two_mirrors d : Forall2 (mirrors (cached d)) [fst (w_base left_c); fst (w_base right_c)] [left_c; right_c].
Proof. constructor; [apply base_mirrors|]. constructor; [apply base_mirrors|]. constructor. Qed.
