(** Domain readings from inside callbacks never leave a stale domain behind. *)
From Coq Require Import List ZArith QArith Qcanon Bool Lia Lqa Arith Wf_nat Permutation.
From Verif Require Import Base Num NumFacts Interval IntervalFacts Curve Graph Combine CombineFacts PointsOps UpdFacts PointsDec GraphFacts GraphSettle GraphTop Live LiveNet LiveSpec LiveFacts LiveTop LiveReads.
Import ListNotations.

(** Same pending intervals, whatever is cached. *)
Definition same_upd (s s' : nstate xq) : Prop := forall j, u_begin (s j) = u_begin (s' j) /\ u_end (s j) = u_end (s' j).
Lemma same_refl s : same_upd s s. Proof. split; auto. Qed.
Lemma same_trans s1 s2 s3 : same_upd s1 s2 -> same_upd s2 s3 -> same_upd s1 s3.
Proof. intros A B j. destruct (A j), (B j). split; congruence. Qed.
Lemma node_op_same (u v : upd xq) e d : u_begin u = u_begin v -> u_end u = u_end v ->
  snd (node_op u e d) = snd (node_op v e d) /\
  u_begin (fst (node_op u e d)) = u_begin (fst (node_op v e d)) /\ u_end (fst (node_op u e d)) = u_end (fst (node_op v e d)).
Proof.
  intros A B. unfold node_op. destruct e; [unfold end_update|unfold begin_update]; rewrite <- ?A, <- ?B;
    repeat match goal with |- context [if ?b then _ else _] => destruct b eqn:? end; cbn; auto.
Qed.
Lemma same_set s s' i u u' : same_upd s s' -> u_begin u = u_begin u' -> u_end u = u_end u' -> same_upd (set_node s i u) (set_node s' i u').
Proof. intros A B C j. unfold set_node. destruct (j =? i)%nat; auto. Qed.

(** ** One reading *)
Definition go_reads (env : nat -> ncurve) (ns : list (node xq)) f :=
  fix go (ps : list nat) (s : nstate xq) : res (nstate xq * list (ival xq)) :=
    match ps with
    | [] => Ok (s, [])
    | p :: ps' =>
        let! (s1, d) := read_dom env ns f s p in
        let! (s2, ds) := go ps' s1 in
        Ok (s2, d :: ds)
    end.
Lemma read_dom_eq env ns f s j : read_dom env ns (S f) s j =
  match u_dom (s j), nth_error ns j with
  | Some d, _ => Ok (s, d)
  | None, None => Ok (s, i_empty)
  | None, Some n =>
      let! (s1, ds) := go_reads env ns f (dom_reads n) s in
      Ok (set_node s1 j (keep_dom (s1 j) (node_dom (env j) n ds)), node_dom (env j) n ds)
  end.
Proof. reflexivity. Qed.

Section Reads.
Variable ns : list (node xq).
Hypothesis W : proper ns.

Definition right (env : nat -> ncurve) (s : nstate xq) (j : nat) : Prop :=
  forall d, u_dom (s j) = Some d -> d = c_dom (curve_of env ns j).
(** A set of nodes that contains what its members read. *)
Definition downward (P : nat -> Prop) : Prop := forall j n p, nth_error ns j = Some n -> In p (reads n) -> P j -> P p.

Lemma dom_reads_in n p : In p (dom_reads n) -> In p (reads (T := xq) n).
Proof. destruct n; simpl; auto. contradiction. Qed.
Lemma node_dom_eq env j n : nth_error ns j = Some n ->
  node_dom (env j) n (map (fun p => c_dom (curve_of env ns p)) (dom_reads n)) = c_dom (curve_of env ns j).
Proof.
  intros E. rewrite (curve_eq env ns j n W E). destruct n as [|skip param tfm p|a p|u d tfm ps|nr ps]; try reflexivity.
  - cbn. unfold agg_dom. now rewrite map_map.
  - cbn. unfold piecewise_dom. now rewrite map_map.
Qed.

Lemma read_dom_spec env P fuel : downward P -> forall s j, (j < fuel)%nat \/ (length ns <= j /\ 0 < fuel)%nat -> (forall k, P k -> right env s k) ->
  exists s' d, read_dom env ns fuel s j = Ok (s', d) /\ same_upd s s' /\ (forall k, P k -> right env s' k) /\ (P j -> d = c_dom (curve_of env ns j)).
Proof.
  intros DW. induction fuel as [|f IH]; intros s j L H; [lia|]. rewrite read_dom_eq.
  destruct (u_dom (s j)) as [d|] eqn:U.
  - exists s, d. split; [reflexivity|]. split; [apply same_refl|]. split; auto.
    intros Pj. exact (H j Pj d U).
  - destruct (nth_error ns j) as [n|] eqn:E.
    2:{ exists s, i_empty. split; [reflexivity|]. split; [apply same_refl|]. split; auto. intros _.
        apply nth_error_None in E. now rewrite curve_out by auto. }
    assert (Lj : (j < length ns)%nat) by (apply nth_error_Some; congruence).
    assert (X : forall ps s0, (forall p, In p ps -> (p < j)%nat) -> (forall k, P k -> right env s0 k) ->
      exists s' ds, go_reads env ns f ps s0 = Ok (s', ds) /\ same_upd s0 s' /\ (forall k, P k -> right env s' k) /\
        ((forall p, In p ps -> P p) -> ds = map (fun p => c_dom (curve_of env ns p)) ps)).
    { induction ps as [|p ps IHp]; intros s0 Lp H0; cbn [go_reads].
      - exists s0, []. split; [reflexivity|]. split; [apply same_refl|]. auto.
      - destruct (IH s0 p) as [s1 [d [E1 [S1 [R1 V1]]]]]; [left; specialize (Lp p (or_introl eq_refl)); lia|auto|].
        rewrite E1. cbn. destruct (IHp s1) as [s2 [ds [E2 [S2 [R2 V2]]]]]; [intros; apply Lp; simpl; auto|auto|].
        fold (go_reads env ns f). rewrite E2. cbn. exists s2, (d :: ds). split; [reflexivity|]. split; [now apply same_trans with s1|]. split; auto.
        intros A. rewrite V1 by (apply A; simpl; auto). rewrite V2 by (intros; apply A; simpl; auto). reflexivity. }
    destruct (W j n E) as [_ FR].
    destruct (X (dom_reads n) s) as [s1 [ds [E1 [S1 [R1 V1]]]]]; [|auto|].
    { intros p I. exact (proj1 (Forall_forall _ _) FR p (dom_reads_in n p I)). }
    rewrite E1. cbn. eexists _, _. split; [reflexivity|].
    assert (VD : P j -> node_dom (env j) n ds = c_dom (curve_of env ns j)).
    { intros Pj. rewrite V1; [now apply node_dom_eq|]. intros p I. apply (DW j n p E); auto. now apply dom_reads_in. }
    split; [|split; auto].
    + intros k. unfold set_node. destruct (Nat.eqb_spec k j) as [->|]; auto. cbn [keep_dom u_begin u_end]. auto.
    + intros k Pk. unfold right, set_node. destruct (Nat.eqb_spec k j) as [->|]; [|now apply R1].
      cbn [keep_dom u_dom]. intros d Hd. injection Hd as <-. auto.
Qed.

Lemma read_all_spec env P js : downward P -> forall s, (forall k, P k -> right env s k) ->
  exists s' l, read_all env ns s js = Ok (s', l) /\ same_upd s s' /\ (forall k, P k -> right env s' k) /\
    calls l = [] /\ forall j d, In (IRead j d) l -> P j -> d = c_dom (curve_of env ns j).
Proof.
  intros DW. induction js as [|j js IH]; intros s H; cbn [read_all].
  - exists s, []. split; [reflexivity|]. split; [apply same_refl|]. split; auto. split; auto. contradiction.
  - destruct (read_dom_spec env P (S (length ns)) DW s j) as [s1 [d [E1 [S1 [R1 V1]]]]]; [lia|auto|].
    rewrite E1. cbn. destruct (IH s1 R1) as [s2 [l [E2 [S2 [R2 [C2 V2]]]]]]. rewrite E2. cbn.
    exists s2, (IRead j d :: l). split; [reflexivity|]. split; [now apply same_trans with s1|]. split; auto. split; auto.
    intros j' d' [I|I]; [injection I as <- <-; auto|eauto].
Qed.

(** ** One call with readings *)
Lemma calls_app (l1 l2 : list (item xq)) : calls (l1 ++ l2) = calls l1 ++ calls l2.
Proof. induction l1 as [|[en|j d] l1 IH]; simpl; auto. now rewrite IH. Qed.
Lemma node_op_dom (u : upd xq) e d : u_dom (fst (node_op u e d)) = u_dom u \/ u_dom (fst (node_op u e d)) = None.
Proof.
  unfold node_op. destruct e; [unfold end_update|unfold begin_update];
    repeat match goal with |- context [if ?b then _ else _] => destruct b eqn:? end; cbn; auto.
Qed.
Lemma node_op_fired (u : upd xq) d : snd (node_op u true d) <> None -> u_dom (fst (node_op u true d)) = None.
Proof.
  unfold node_op, end_update. repeat match goal with |- context [if ?b then _ else _] => destruct b eqn:? end; cbn; congruence.
Qed.

Section Run.
Variable g : net xq.
Variable env : nat -> ncurve.
Variable hook : nat -> list nat.
Variable L : list (entry xq).
(** [P fut]: the nodes whose caches have to be right when the calls [fut] are
    still to come. *)
Variable P : list (entry xq) -> nat -> Prop.
Hypothesis P_down : forall past fut, L = past ++ fut -> downward (P fut).
Hypothesis P_step : forall past en fut j, L = past ++ en :: fut -> P fut j ->
  P (en :: fut) j \/ (l_node en = j /\ l_end en = true /\ l_not en <> None).

Definition go_deps_r f (e : bool) (x : ival xq) :=
  fix go (cs : list (nat * (ival xq -> ival xq))) (s : nstate xq) (k : nat) : res (nstate xq * nat * list (item xq)) :=
    let! (s0, l0) := read_all env ns s (hook k) in
    match cs with
    | [] => Ok (s0, S k, l0)
    | (c, t) :: cs' =>
        let! (s1, k1, l1) := net_op_r env ns hook g f s0 (S k) c e (t x) in
        let! (s2, k2, l2) := go cs' s1 k1 in
        Ok (s2, k2, l0 ++ l1 ++ l2)
    end.
Lemma net_op_r_eq f s k i e d : net_op_r env ns hook g (S f) s k i e d =
  let '(u, n) := node_op (s i) e d in
  let s1 := set_node s i u in
  let! (s2, k2, log) := match n with None => Ok (s1, k, []) | Some x => go_deps_r f e x (deps g i) s1 k end in
  Ok (s2, k2, ICall (Graph.mkL i e d n) :: log).
Proof. reflexivity. Qed.

Definition shows (l : list (item xq)) (fut : list (entry xq)) : Prop :=
  forall l1 j d l2, l = l1 ++ IRead j d :: l2 -> P (calls l2 ++ fut) j -> d = c_dom (curve_of env ns j).
Definition runs (s s0' : nstate xq) (log : list (entry xq)) (r : res (nstate xq * nat * list (item xq))) (fut : list (entry xq)) : Prop :=
  exists s' k' l, r = Ok (s', k', l) /\ same_upd s' s0' /\ calls l = log /\ (forall j, P fut j -> right env s' j) /\ shows l fut.

Lemma shows_app l1 l2 fut : shows l1 (calls l2 ++ fut) -> shows l2 fut -> shows (l1 ++ l2) fut.
Proof.
  intros A B a j d b E H. destruct (app_cons_split _ _ _ _ _ E) as [[c [E1 E2]]|[c [E1 E2]]].
  - subst. rewrite calls_app, <- app_assoc in H. exact (A a j d c eq_refl H).
  - subst. exact (B c j d b eq_refl H).
Qed.
Lemma shows_reads past fut s js : L = past ++ fut -> (forall j, P fut j -> right env s j) ->
  exists s' l, read_all env ns s js = Ok (s', l) /\ same_upd s s' /\ calls l = [] /\ (forall j, P fut j -> right env s' j) /\ shows l fut.
Proof.
  intros E H. destruct (read_all_spec env (P fut) js (P_down past fut E) s H) as [s' [l [E1 [S1 [R1 [C1 V1]]]]]].
  exists s', l. repeat (split; auto). intros a j d b El K. subst l. apply (V1 j d); [apply in_or_app; simpl; auto|].
  rewrite calls_app in C1. apply app_eq_nil in C1. destruct C1 as [_ C1]. cbn [calls] in C1. now rewrite C1 in K.
Qed.

Lemma net_op_runs f : forall s s0 k i e d s0' log past fut, same_upd s s0 -> net_op g f s0 i e d = Ok (s0', log) ->
  L = past ++ log ++ fut -> (forall j, P (log ++ fut) j -> right env s j) -> runs s s0' log (net_op_r env ns hook g f s k i e d) fut.
Proof.
  induction f as [|f IH]; intros s s0 k i e d s0' log past fut SM E EL H; [discriminate|].
  rewrite net_op_eq in E. rewrite net_op_r_eq.
  destruct (SM i) as [Sb Se]. destruct (node_op_same (s i) (s0 i) e d Sb Se) as [N1 [N2 N3]].
  pose proof (node_op_dom (s i) e d) as ND. pose proof (fun X : e = true => node_op_fired (s i) d) as NF.
  destruct (node_op (s i) e d) as [u n] eqn:Eu. destruct (node_op (s0 i) e d) as [u0 n0] eqn:Eu0. cbn [fst snd] in *. subst n0.
  cbn zeta in *. set (s1 := set_node s i u) in *. set (s10 := set_node s0 i u0) in *.
  assert (S1 : same_upd s1 s10) by (apply same_set; auto).
  destruct (match n with None => Ok (s10, []) | Some x => go_deps g f e x (deps g i) s10 end) as [[sa la]|] eqn:Ea; [|discriminate].
  cbn in E. injection E as <- <-.
  assert (R1 : forall j, P (la ++ fut) j -> right env s1 j).
  { intros j Pj. destruct (P_step past _ (la ++ fut) j EL Pj) as [X|[X1 [X2 X3]]].
    - unfold right, s1, set_node. destruct (Nat.eqb_spec j i) as [->|]; [|now apply H].
      intros d0 Hd. destruct ND as [ND|ND]; [|congruence]. apply (H i X). congruence.
    - cbn [l_node l_end l_not] in X1, X2, X3. subst j e. unfold right, s1, set_node. rewrite Nat.eqb_refl.
      rewrite Eu in NF. cbn [fst snd] in NF. rewrite NF by auto. discriminate. }
  destruct n as [x|].
  2:{ injection Ea as <- <-. exists s1, k, [ICall (Graph.mkL i e d None)]. cbn. split; [reflexivity|]. repeat (split; auto).
      intros [|a l1] j d0 l2 El; [discriminate|]. injection El as _ El. destruct l1; discriminate. }
  assert (X : forall cs s s0 k past s0' log, same_upd s s0 -> go_deps g f e x cs s0 = Ok (s0', log) ->
     L = past ++ log ++ fut -> (forall j, P (log ++ fut) j -> right env s j) -> runs s s0' log (go_deps_r f e x cs s k) fut).
  { clear s s0 SM Sb Se N2 N3 ND NF Eu Eu0 H Ea R1 S1 sa la EL s1 s10 past k.
    induction cs as [|[c t] cs IHc]; intros s s0 k past s0' log SM E EL H; cbn [go_deps go_deps_r] in E |- *.
    - injection E as <- <-. destruct (shows_reads past fut s (hook k) EL H) as [s' [l [E1 [S1 [C1 [R1 V1]]]]]]. rewrite E1. cbn.
      exists s', (S k), l. split; [reflexivity|]. split; [|auto]. intros j. destruct (S1 j), (SM j). split; congruence.
    - fold (go_deps g f e x) in E. fold (go_deps_r f e x).
      destruct (net_op g f s0 c e (t x)) as [[sb lb]|] eqn:Eb; [|discriminate]. cbn in E.
      destruct (go_deps g f e x cs sb) as [[sc lc]|] eqn:Ec; [|discriminate]. cbn in E. injection E as <- <-.
      destruct (shows_reads past ((lb ++ lc) ++ fut) s (hook k) EL H) as [s' [l [E1 [S1 [C1 [R1 V1]]]]]]. rewrite E1. cbn.
      destruct (IH s' s0 (S k) c e (t x) sb lb past (lc ++ fut)) as [s2 [k2 [l2 [E2 [S2 [C2 [R2 V2]]]]]]]; auto.
      { intros j. destruct (S1 j), (SM j). split; congruence. }
      { now rewrite EL, <- app_assoc. }
      { intros j Pj. apply R1. now rewrite <- app_assoc. }
      rewrite E2. cbn.
      destruct (IHc s2 sb k2 (past ++ lb) sc lc) as [s3 [k3 [l3 [E3 [S3 [C3 [R3 V3]]]]]]]; auto.
      { now rewrite EL, <- !app_assoc. }
      rewrite E3. cbn. exists s3, k3, (l ++ l2 ++ l3). split; [reflexivity|]. split; auto. split; [now rewrite !calls_app, C1, C2, C3|]. split; auto.
      apply shows_app; [|apply shows_app; auto; now rewrite C3].
      rewrite calls_app, C2, C3. exact V1. }
  destruct (X (deps g i) s1 s10 k (past ++ [Graph.mkL i e d (Some x)]) sa la S1 Ea) as [s2 [k2 [l2 [E2 [S2 [C2 [R2 V2]]]]]]]; auto.
  { rewrite EL, <- app_assoc. reflexivity. }
  rewrite E2. cbn. exists s2, k2, (ICall (Graph.mkL i e d (Some x)) :: l2). split; [reflexivity|]. split; auto. split; [cbn; now rewrite C2|]. split; auto.
  intros [|a l1] j d0 l3 El; [discriminate|]. injection El as _ El. exact (V2 l1 j d0 l3 El).
Qed.

End Run.
End Reads.
