(** The decomposition of ExtremasFold.v is unique, its extremas ascend, alternate
    and come from the points, and more points only add extremas. *)
From Coq Require Import List ZArith QArith Qcanon Bool Lia Sorting.Sorted.
From Verif Require Import Base Num NumFacts Interval Curve Points PointsIdx PointsOps Combine Scan Extremas ExtremasFold.
Import ListNotations.
Open Scope Qc_scope.

Section Uniq.
Context (dev : Qc) (R : Qc -> option Qc).
Notation deviates := (deviates dev R).
Notation above := (above R).
Notation below := (below R).
Notation peak := (peak R).
Notation alternate := (alternate R).
Notation opposite := (opposite R).
Notation selects := (selects dev R).
Notation extremas_of := (extremas_of dev R).

Lemma selects_fun l s s' : selects l s -> selects l s' -> s = s'.
Proof.
  intros H. revert s'. induction H; intros s' H'; inversion H'; subst; try contradiction; auto.
  f_equal. auto.
Qed.

(** a list of runs: nonempty, one-sided, alternating *)
Definition one_sided (r : list (Qc * Qc)) : Prop := r <> [] /\ (Forall above r \/ Forall below r).
Lemma peak_one_sided p r : peak p r -> one_sided r.
Proof. intros (a & b & -> & [(F & _)|(F & _)]); split; auto; destruct a; discriminate. Qed.
Lemma alternate_tl r runs : alternate (r :: runs) -> alternate runs.
Proof. intros H i r1 r2 E1 E2. apply (H (S i)); auto. Qed.

Lemma app_split {A} (a : list A) : forall b c d, a ++ b = c ++ d ->
  (a = c /\ b = d) \/ (exists x t, c = a ++ x :: t /\ b = x :: t ++ d) \/ (exists x t, a = c ++ x :: t /\ d = x :: t ++ b).
Proof.
  induction a as [|x a IH]; intros b [|y c] d E; cbn in *.
  - left. auto.
  - right. left. exists y, c. auto.
  - right. right. exists x, a. auto.
  - injection E as -> E. destruct (IH _ _ _ E) as [[-> ->]|[(z & t & -> & ->)|(z & t & -> & ->)]].
    + left. auto.
    + right. left. exists z, t. auto.
    + right. right. exists z, t. auto.
Qed.

Lemma overrun r1 runs r1' runs' x t : one_sided r1 -> one_sided r1' -> Forall one_sided runs -> alternate (r1 :: runs) ->
  r1' = r1 ++ x :: t -> concat runs = x :: t ++ concat runs' -> False.
Proof.
  intros [N1 S1] [_ S1'] F A -> C. destruct runs as [|r2 runs]; [discriminate|].
  inversion F; subst. destruct H1 as [N2 _]. destruct r2 as [|y r2]; [contradiction|]. cbn in C. injection C as -> _.
  pose proof (A 0%nat _ _ eq_refl eq_refl) as O. destruct r1 as [|z r1]; [contradiction|].
  assert (I1 : In z ((z :: r1) ++ x :: t)) by now left.
  assert (I2 : In x ((z :: r1) ++ x :: t)) by (apply in_or_app; right; now left).
  destruct O as [[U V]|[U V]], S1' as [W|W]; rewrite Forall_forall in U, V, W;
  pose proof (U z (or_introl eq_refl)); pose proof (V x (or_introl eq_refl)); pose proof (W z I1); pose proof (W x I2);
  try (apply (sides_excl R z); assumption); apply (sides_excl R x); assumption.
Qed.
Lemma runs_unique runs : forall runs', Forall one_sided runs -> Forall one_sided runs' -> alternate runs -> alternate runs' ->
  concat runs = concat runs' -> runs = runs'.
Proof.
  induction runs as [|r runs IH]; intros runs' F F' A A' C.
  - destruct runs' as [|r' runs']; auto. inversion F'; subst. destruct H1 as [N _]. destruct r'; [contradiction|discriminate].
  - destruct runs' as [|r' runs'].
    { inversion F; subst. destruct H1 as [N _]. destruct r; [contradiction|discriminate]. }
    inversion F; inversion F'; subst. cbn in C. destruct (app_split _ _ _ _ C) as [[-> E]|[(x & t & E1 & E2)|(x & t & E1 & E2)]].
    + f_equal. apply IH; auto; eapply alternate_tl; eauto.
    + exfalso. eapply (overrun r runs r' runs'); eauto.
    + exfalso. eapply (overrun r' runs' r runs); eauto.
Qed.

Lemma peak_unique p p' r : peak p r -> peak p' r -> p = p'.
Proof.
  intros (a & b & E & H) (a' & b' & E' & H'). rewrite E in E'.
  destruct (app_split _ _ _ _ E') as [[-> X]|[(x & t & -> & X)|(x & t & -> & X)]].
  - now injection X.
  - injection X as <- ->. subst r. rewrite <- app_assoc in *. exfalso.
    assert (I1 : In p (a ++ p :: t ++ p' :: b')) by (apply in_or_app; right; now left).
    destruct H as [(F & _ & H2)|(F & _ & H2)], H' as [(F' & H1' & _)|(F' & H1' & _)].
    + apply Forall_app in H1'. destruct H1' as [_ K]. inversion K; subst.
      apply Forall_app in H2. destruct H2 as [_ K2]. inversion K2; subst. qc_lra.
    + rewrite Forall_forall in F, F'. eapply sides_excl; eauto.
    + rewrite Forall_forall in F, F'. eapply sides_excl; eauto.
    + apply Forall_app in H1'. destruct H1' as [_ K]. inversion K; subst.
      apply Forall_app in H2. destruct H2 as [_ K2]. inversion K2; subst. qc_lra.
  - injection X as <- ->. subst r. rewrite <- app_assoc in *. exfalso.
    assert (I1 : In p (a' ++ p' :: t ++ p :: b)) by (apply in_or_app; right; right; apply in_or_app; right; now left).
    destruct H as [(F & H1 & _)|(F & H1 & _)], H' as [(F' & _ & H2')|(F' & _ & H2')].
    + apply Forall_app in H1. destruct H1 as [_ K]. inversion K; subst.
      apply Forall_app in H2'. destruct H2' as [_ K2]. inversion K2; subst. qc_lra.
    + rewrite Forall_forall in F, F'. eapply sides_excl; eauto.
    + rewrite Forall_forall in F, F'. eapply sides_excl; eauto.
    + apply Forall_app in H1. destruct H1 as [_ K]. inversion K; subst.
      apply Forall_app in H2'. destruct H2' as [_ K2]. inversion K2; subst. qc_lra.
Qed.
Lemma peaks_one_sided es rs : Forall2 peak es rs -> Forall one_sided rs.
Proof. induction 1; constructor; auto. eapply peak_one_sided; eauto. Qed.
Lemma peaks_unique es rs : Forall2 peak es rs -> forall es', Forall2 peak es' rs -> es = es'.
Proof.
  induction 1; intros es' H'; inversion H'; subst; auto. f_equal; auto. eapply peak_unique; eauto.
Qed.

Theorem extremas_unique l e p e' p' : extremas_of l e p -> extremas_of l e' p' -> e = e' /\ p = p'.
Proof.
  intros (s & r & S1 & C & A & M) (s' & r' & S1' & C' & A' & M').
  pose proof (selects_fun _ _ _ S1 S1') as <-. 
  assert (O : forall es ps (rs : list (list (Qc * Qc))), match ps with None => rs = [] /\ es = [] | Some q => exists conf cur, rs = conf ++ [cur] /\ Forall2 peak es conf /\ peak q cur end -> Forall one_sided rs).
  { intros es [q|] rs; [intros (conf & cur & -> & F & P)|intros [-> _]; constructor].
    apply Forall_app. split; [eapply peaks_one_sided; eauto|constructor; auto; eapply peak_one_sided; eauto]. }
  assert (r = r') as <- by (apply runs_unique; eauto; congruence).
  destruct p as [p|], p' as [p'|].
  - destruct M as (c & u & E & F & P), M' as (c' & u' & E' & F' & P'). rewrite E in E'. apply app_inj_tail in E'. destruct E' as [<- <-].
    split; [eapply peaks_unique; eauto|f_equal; eapply peak_unique; eauto].
  - destruct M as (c & u & E & _), M' as [E' _]. rewrite E in E'. destruct c; discriminate.
  - destruct M' as (c & u & E & _), M as [E' _]. rewrite E in E'. destruct c; discriminate.
  - destruct M as [_ ->], M' as [_ ->]. auto.
Qed.

(** ** Consequences *)
Lemma selects_in l s x y : selects l s -> In (x, y) s -> In (x, Some y) l /\ deviates (x, y).
Proof.
  induction 1; intros I; cbn in *; auto.
  - destruct I.
  - destruct I as [E|I]; [injection E as -> ->; auto|]. destruct IHselects; auto.
  - destruct IHselects; auto.
  - destruct IHselects; auto.
Qed.
Definition xlt (p q : Qc * Qc) : Prop := fst p < fst q.
Definition slt (p q : spt) : Prop := fst p < fst q.
Lemma selects_sorted l s : StronglySorted slt l -> selects l s -> StronglySorted xlt s.
Proof.
  intros A H. induction H; inversion A; subst; auto; constructor; auto.
  rewrite Forall_forall in *. intros [a b] I. apply (selects_in l s) in I; auto. destruct I as [I _].
  apply H4 in I. exact I.
Qed.
Lemma sorted_app (a b : list (Qc * Qc)) : StronglySorted xlt (a ++ b) -> StronglySorted xlt a /\ StronglySorted xlt b /\
  forall p q, In p a -> In q b -> xlt p q.
Proof.
  induction a as [|x a IH]; cbn; intros H; [split; [constructor|split; auto; intros p q []]|].
  inversion H; subst. destruct (IH H2) as (A & B & C). rewrite Forall_app in H3. destruct H3 as [F1 F2]. split; [constructor; auto|]. split; auto.
  intros p q [<-|I] J; auto. rewrite Forall_forall in F2. auto.
Qed.
Lemma peaks_sorted es rs : Forall2 peak es rs -> StronglySorted xlt (concat rs) -> StronglySorted xlt es /\ forall p, In p es -> In p (concat rs).
Proof.
  induction 1; cbn; intros A; [split; auto; constructor|].
  apply sorted_app in A. destruct A as (A & B & C). destruct (IHForall2 B) as [I1 I2]. apply peak_in in H. split.
  - constructor; auto. apply Forall_forall. intros q Iq. apply C; auto.
  - intros p [<-|Ip]; apply in_or_app; auto.
Qed.
Theorem extremas_sound l es p : StronglySorted slt l -> extremas_of l es p ->
  StronglySorted xlt es /\ (forall q, In q es -> In (fst q, Some (snd q)) l /\ deviates q) /\
  (forall q, p = Some q -> In (fst q, Some (snd q)) l /\ deviates q /\ forall q', In q' es -> xlt q' q).
Proof.
  intros A (s & r & S1 & C & AL & M). pose proof (selects_sorted _ _ A S1) as SS. subst s.
  assert (IN : forall q, In q (concat r) -> In (fst q, Some (snd q)) l /\ deviates q).
  { intros [x y] I. now apply (selects_in l (concat r)). }
  destruct p as [p|].
  - destruct M as (c & u & -> & F & P). rewrite concat_snoc in *. apply sorted_app in SS. destruct SS as (B1 & B2 & B3).
    destruct (peaks_sorted _ _ F B1) as [I1 I2]. split; auto. split.
    + intros q Iq. apply IN. apply in_or_app. left. auto.
    + intros q E. injection E as <-. apply peak_in in P. 
      assert (I : In p (concat c ++ u)) by (apply in_or_app; auto). destruct (IN _ I). repeat split; auto.
  - destruct M as [-> ->]. repeat split; try constructor; try contradiction; discriminate.
Qed.
(** consecutive extremas, and the last one and the possible one, are on opposite
    sides of the reference *)
Definition crosses (p q : Qc * Qc) : Prop := (above p /\ below q) \/ (below p /\ above q).
Lemma opposite_peaks p q r1 r2 : opposite r1 r2 -> peak p r1 -> peak q r2 -> crosses p q.
Proof.
  intros O P Q. apply peak_in in P, Q. destruct O as [[U V]|[U V]]; rewrite Forall_forall in U, V; [left|right]; auto.
Qed.
Theorem extremas_alternate l es p i q q' : extremas_of l es (Some p) -> nth_error (es ++ [p]) i = Some q -> nth_error (es ++ [p]) (S i) = Some q' ->
  crosses q q'.
Proof.
  intros (s & r & S1 & C & AL & c & u & -> & F & P) E1 E2.
  assert (FF : Forall2 peak (es ++ [p]) (c ++ [u])) by (apply Forall2_app; auto).
  assert (N : forall j z, nth_error (es ++ [p]) j = Some z -> exists run, nth_error (c ++ [u]) j = Some run /\ peak z run).
  { clear -FF. revert FF. generalize (es ++ [p]) (c ++ [u]). intros l1 l2 FF. induction FF; intros [|j] z E; cbn in *; try discriminate.
    - injection E as <-. eauto.
    - auto. }
  destruct (N _ _ E1) as (r1 & N1 & P1), (N _ _ E2) as (r2 & N2 & P2). eapply opposite_peaks; eauto.
Qed.

(** ** More points only add extremas *)
Lemma holds_some es p : extremas_of [] es p \/ True -> exists e, holds R e es p.
Proof.
  intros _. exists (mkX None None (map fqp es) (ext_interval (map fqp es)) (option_map fqp p) (match p with Some p => phase_of R p | None => None end) upd_init).
  constructor; reflexivity.
Qed.
Lemma extremas_grow l2 : forall l1 e1 p1, 0 <= dev -> Forall (ref_nonzero R) l2 -> extremas_of l1 e1 p1 ->
  exists t p2, extremas_of (l1 ++ l2) (e1 ++ t) p2.
Proof.
  induction l2 as [|s l2 IH]; intros l1 e1 p1 D NZ X.
  - exists [], p1. now rewrite !app_nil_r.
  - inversion NZ; subst. destruct (holds_some e1 p1 (or_intror Logic.I)) as [e H].
    destruct (scan_step dev R l1 e e1 p1 s D) as (e' & ex' & ps' & _ & _ & X' & _ & _ & _ & G); auto.
    destruct (IH (l1 ++ [s]) ex' ps' D) as (t & p2 & X2); auto. rewrite <- app_assoc in X2. cbn [app] in X2.
    destruct G as [->|(p & -> & ->)].
    + eauto.
    + rewrite <- app_assoc in X2. eauto.
Qed.
Theorem extremas_prefix l1 l2 e1 p1 e2 p2 : 0 <= dev -> Forall (ref_nonzero R) l2 -> extremas_of l1 e1 p1 -> extremas_of (l1 ++ l2) e2 p2 ->
  exists t, e2 = e1 ++ t.
Proof.
  intros D NZ X1 X2. destruct (extremas_grow l2 l1 e1 p1 D NZ X1) as (t & p & X). exists t. eapply extremas_unique; eauto.
Qed.
Theorem extremas_exist l : 0 <= dev -> Forall (ref_nonzero R) l -> exists e p, extremas_of l e p.
Proof.
  intros D NZ. destruct (extremas_grow l [] [] None D NZ (extremas_nil dev R)) as (t & p & X). eauto.
Qed.
End Uniq.
