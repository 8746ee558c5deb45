(** Networks over Points, lines and constants. *)
From Coq Require Import List ZArith QArith Qcanon Bool Lia Lqa Arith Wf_nat Permutation.
From Verif Require Import Base Num NumFacts Interval IntervalFacts Curve Points PointsSpec PointsOps UpdFacts Graph Combine CombineFacts GraphFacts GraphSettle GraphTop Live LiveNet LiveSpec LiveFacts LiveTop LivePoints.
Import ListNotations.

(** Where nothing changed in the sources, nothing changed in the network. *)
Lemma nothing_changes ns env i c : proper ns -> sources_ok ns env -> iok (c_dom c) -> tame ns env -> tame ns (set_env env i c) ->
  (forall q, ~ y_changes (env i) c q /\ ~ dom_changes (env i) c q) ->
  forall j q, ~ y_changes (curve_of env ns j) (curve_of (set_env env i c) ns j) q /\
    (local_domain ns j -> ~ dom_changes (curve_of env ns j) (curve_of (set_env env i c) ns j) q).
Proof.
  intros W S O T T' K. pose proof (source_ok_set ns env i c S O) as S'. set (env' := set_env env i c) in *.
  intros j. induction j as [j IH] using lt_wf_ind. intros q. destruct (nth_error ns j) as [n|] eqn:E.
  2:{ apply nth_error_None in E. unfold y_changes, dom_changes. rewrite !curve_out by auto. split; [congruence|intros _; congruence]. }
  assert (SRC : n = NSource \/ n <> NSource) by (destruct n; [left; reflexivity|right; discriminate..]).
  destruct SRC as [->|Ns].
  - unfold y_changes, dom_changes. rewrite (curve_eq env ns j _ W E), (curve_eq env' ns j _ W E). cbn [node_curve].
    unfold env', set_env. destruct (Nat.eqb_spec j i) as [->|Nj]; [|split; [|intros _]; congruence].
    destruct (K q) as [K1 K2]. split; auto.
  - assert (FR : forall p, In p (reads n) -> (p < j)%nat) by (destruct (W j n E) as [_ F]; exact (proj1 (Forall_forall _ _) F)).
    split.
    + intros H. destruct (y_from ns W env env' S S' j n q E Ns (T j n E) (T' j n E) H) as [p [z [I [_ C]]]].
      destruct (IH p (FR p I) z) as [I1 I2]. destruct C as [C|[C1 C2]]; [exact (I1 C)|exact (I2 C1 C2)].
    + intros L H. destruct (dom_from ns W env env' S S' j n q E Ns L H) as [p [z [I [_ [C1 C2]]]]].
      destruct (IH p (FR p I) z) as [_ I2]. exact (I2 C1 C2).
Qed.

(** An operation on a Points source. *)
Lemma points_told ns g env st i s o s' evs fuel :
  proper ns -> wired ns g -> sources_ok ns env -> tame ns env -> tame ns (set_env env i (p_crv s')) ->
  nth_error ns i = Some NSource -> env i = p_crv s -> (forall j, idle (st j)) -> (length ns <= fuel)%nat ->
  honest_history s -> op_ok o -> (forall q v oa, o <> OReplace q v oa) ->
  run_op s o = (s', evs, Ok tt) -> (p_uniform s' = true -> equally_spaced (p_pts s')) ->
  (evs = [] /\ forall j q, c_y (curve_of (set_env env i (p_crv s')) ns j) (Fin q) = c_y (curve_of env ns j) (Fin q)) \/
  exists D st' LB LE, evs = [EvBegin D; EvEnd D] /\ net_update g fuel st i D = Ok (st', LB, LE) /\
    forall j q, y_changes (curve_of env ns j) (curve_of (set_env env i (p_crv s')) ns j) q -> told LE j q.
Proof.
  intros W Wg S T T' Ei Es ID Hf H Ho N1 E U.
  assert (H' : honest_history s') by (eapply hh_op; eauto). pose proof (points_dom_ok s' H') as O.
  destruct (points_tell s o s' evs H Ho N1 E U) as [[-> K]|[D [-> [OD [HD TL]]]]].
  - left. split; auto. intros j q. rewrite <- Es in K.
    apply y_same. exact (proj1 (nothing_changes ns env i (p_crv s') W S O T T' K j q)).
  - right. rewrite <- Es in TL.
    destruct (told_all ns W g Wg env i (p_crv s') D st fuel S O T T' Ei TL OD HD ID Hf) as [st' [LB [LE [Eu X]]]].
    exists D, st', LB, LE. split; auto. split; auto. intros j q. exact (proj1 (X j q)).
Qed.

(** ** Lines and constants *)
Lemma line_tells u old new u' l evs : idle u -> line_put u old new = (u', l, evs) ->
  (evs = [] /\ l = old) \/
  (evs = [EvBegin i_infinite; EvEnd i_infinite] /\ l = new /\ tells i_infinite (line_curve old) (line_curve new)).
Proof.
  intros ID E. unfold line_put in E. destruct (_ && _) eqn:X.
  - left. injection E as _ <- <-. auto.
  - right. rewrite begin_idle in E by (auto using iok_infinite; reflexivity).
    rewrite end_begun in E by (auto using iok_infinite; reflexivity). injection E as _ <- <-.
    split; [reflexivity|]. split; auto. intros q _. split; reflexivity.
Qed.
Lemma constant_tells u old new u' v evs : idle u -> constant_set i_infinite u old new = (u', v, evs) ->
  (evs = [] /\ v = old) \/
  (evs = [EvBegin i_infinite; EvEnd i_infinite] /\ v = new /\ tells i_infinite (constant_curve old None) (constant_curve new None)).
Proof.
  intros ID E. unfold constant_set in E. destruct (new =? old)%num eqn:X.
  - left. injection E as _ <- <-. auto.
  - right. rewrite begin_idle in E by (auto using iok_infinite; reflexivity).
    rewrite end_begun in E by (auto using iok_infinite; reflexivity). injection E as _ <- <-.
    split; [reflexivity|]. split; auto. intros q _. split; reflexivity.
Qed.
(* constant.py:15-21, 38: the setter announces the domain, but y ignores the domain *)
Lemma constant_bounded dom u a b q : idle u -> iok dom -> i_is_empty dom = false -> a <> b -> ~ imem dom (Fin q) ->
  exists u', constant_set dom u (Fin a) (Fin b) = (u', Fin b, [EvBegin dom; EvEnd dom]) /\
  y_changes (constant_curve (Fin a) (Some dom)) (constant_curve (Fin b) (Some dom)) q.
Proof.
  intros ID O NE N M. unfold constant_set. replace ((Fin b =? Fin a)%num) with false.
  - rewrite begin_idle by auto. rewrite end_begun by auto. eexists. split; [reflexivity|]. unfold y_changes. cbn. intros K. injection K as K. now apply N.
  - symmetry. cbn. destruct (Qceqb b a) eqn:X; auto. apply Qceqb_true in X. congruence.
Qed.

(** ** Curves that are None outside their domains *)
Inductive strict (ns : list (node xq)) (env : nat -> ncurve) : nat -> Prop :=
| st_source j : nth_error ns j = Some NSource -> none_outside (env j) -> strict ns env j
| st_map j skip param tfm p : nth_error ns j = Some (NMap skip param tfm p) -> skip = true \/ (forall x, tfm x None = Ok None) ->
    strict ns env p -> strict ns env j
| st_offset j a p : nth_error ns j = Some (NOffset a p) -> strict ns env j
| st_agg j u tfm ps : nth_error ns j = Some (NAggregate u None tfm ps) -> strict ns env j
| st_pieces j nr ps : nth_error ns j = Some (NPiecewise nr ps) -> strict ns env j.

Lemma strict_none ns env j : proper ns -> sources_ok ns env -> strict ns env j -> none_outside (curve_of env ns j).
Proof.
  intros W S H. induction H as [j E H|j skip param tfm p E K H IH|j a p E|j u tfm ps E|j nr ps E]; intros q; rewrite (curve_eq env ns j _ W E); cbn [node_curve].
  - apply H.
  - cbn [map_curve c_dom c_y]. intros X. change (pick (curves env ns) p) with (curve_of env ns p). rewrite (IH q X). cbn [rbind].
    destruct skip; auto. destruct K as [K|K]; [discriminate|]. apply K.
  - destruct (W j _ E) as [[k ->] _]. cbn [offset_curve c_dom c_y]. intros X.
    change (pick (curves env ns) p) with (curve_of env ns p) in *.
    rewrite (proj2 (offset_misc ns k env p q)) in X by (apply doms_iok; auto).
    unfold offset_eval. rewrite (proj1 (offset_misc ns k env p q)), X. reflexivity.
  - cbn [aggregate c_dom c_y]. intros X. rewrite X. reflexivity.
  - cbn [piecewise_curve c_dom c_y]. destruct (W j _ E) as [F _]. cbn [node_ok] in F. intros X.
    assert (M : forall p, In p ps -> i_contains (snd p) (Fin q) = false).
    { intros p I. destruct (i_contains (snd p) (Fin q)) eqn:Y; auto. exfalso. pose proof (proj1 (Forall_forall _ _) F p I) as Op. cbn in Op.
      apply contains_iff in Y; auto; [|discriminate].
      assert (Fv : Forall iok (map snd ps)) by (apply Forall_forall; intros v Iv; apply in_map_iff in Iv; destruct Iv as [z [<- Iz]]; exact (proj1 (Forall_forall _ _) F z Iz)).
      assert (Z : i_contains (piecewise_dom (map (fun p0 => (pick (curves env ns) (fst p0), snd p0)) ps)) (Fin q) = true); [|congruence].
      unfold piecewise_dom. rewrite map_map. cbn [snd].
      apply contains_iff; [now apply union_ok|discriminate|]. apply union_cover with (snd p); auto; [now apply in_map|discriminate]. }
    clear X E F. induction ps as [|[p v] ps IH]; [reflexivity|]. cbn [map piecewise_y fst snd].
    destruct (i_contains_gen false true v (Fin q)) eqn:A; cbn [negb]; [|apply IH; intros; apply M; simpl; auto].
    destruct (i_contains_gen true false v (Fin q)) eqn:B; cbn [negb]; [|reflexivity].
    exfalso. specialize (M (p, v) (or_introl eq_refl)). cbn [snd] in M. revert A B M. unfold i_contains, i_contains_gen.
    destruct (i_is_empty v); [discriminate|]. cbn [andb negb orb]. intros A B. rewrite andb_true_r in B. rewrite A, B. discriminate.
Qed.

(** ** The two halves of [told_all] *)
Lemma told_values ns g env i c d s fuel :
  proper ns -> wired ns g -> sources_ok ns env -> iok (c_dom c) -> tame ns env -> tame ns (set_env env i c) -> nth_error ns i = Some NSource ->
  tells d (env i) c -> iok d -> i_intersects d i_infinite = true -> (forall j, idle (s j)) -> (length ns <= fuel)%nat ->
  exists s' LB LE, net_update g fuel s i d = Ok (s', LB, LE) /\
  forall j q, y_changes (curve_of env ns j) (curve_of (set_env env i c) ns j) q -> told LE j q.
Proof.
  intros W Wg S O T T' Ei K Hd Hh ID Hf.
  destruct (told_all ns W g Wg env i c d s fuel S O T T' Ei K Hd Hh ID Hf) as [s' [LB [LE [E X]]]].
  exists s', LB, LE. split; auto. intros j q. apply X.
Qed.
Lemma told_domains ns g env i c d s fuel :
  proper ns -> wired ns g -> sources_ok ns env -> iok (c_dom c) -> tame ns env -> tame ns (set_env env i c) -> nth_error ns i = Some NSource ->
  tells d (env i) c -> iok d -> i_intersects d i_infinite = true -> (forall j, idle (s j)) -> (length ns <= fuel)%nat ->
  exists s' LB LE, net_update g fuel s i d = Ok (s', LB, LE) /\
  forall j q, local_domain ns j -> dom_changes (curve_of env ns j) (curve_of (set_env env i c) ns j) q -> told LE j q.
Proof.
  intros W Wg S O T T' Ei K Hd Hh ID Hf.
  destruct (told_all ns W g Wg env i c d s fuel S O T T' Ei K Hd Hh ID Hf) as [s' [LB [LE [E X]]]].
  exists s', LB, LE. split; auto. intros j q. apply X.
Qed.
