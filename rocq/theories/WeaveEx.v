(** MACD: the difference of two exponential averages, its average, and the
    difference of these; and a concrete history. *)
From Coq Require Import List ZArith QArith Qcanon Bool Lia Arith.
From Verif Require Import Base Num NumFacts Interval IntervalFacts Curve Points PointsSpec PointsQuery PointsOps PointsDec PointsHist PointsRefute PointsTop PointsEx.
From Verif Require Import BaseEx Combine CombineFacts CombineTop CombineEx Scan ScanFacts ScanSource ScanInv ScanTf SmaFacts SmaInv ScanTop ScanEx Tower TowerFacts TowerTop TowerHist TowerMean TowerEx.
From Verif Require Import Weave WeaveList WeaveFacts WeaveReady WeaveTell WeaveHist.
Import ListNotations.

(** ** Networks one curve at a time *)
Definition with_out (out : nat -> list (Qc * Qc)) (j : nat) (r : list (Qc * Qc)) : nat -> list (Qc * Qc) := fun i => if (i =? j)%nat then r else out i.
Lemma out_new out j r : with_out out j r j = r.
Proof. unfold with_out. now rewrite Nat.eqb_refl. Qed.
Lemma out_old out j r i : (i < j)%nat -> with_out out j r i = out i.
Proof. intros L. unfold with_out. destruct (Nat.eqb_spec i j); [lia|reflexivity]. Qed.
Lemma sensible_base d : sensible [WBase] d (fun _ => d).
Proof.
  split.
  - split; [reflexivity|]. intros [|[|j]] n H; try discriminate. cbn in H. injection H as <-. split; [intros p []|now left].
  - intros [|[|j]] n H; try discriminate. cbn in H. injection H as <-. split; [exact Logic.I|reflexivity].
Qed.
Lemma wf_snoc ns n : wf ns -> wreads n <> [] -> (forall p, In p (wreads n) -> (p < length ns)%nat) -> wf (ns ++ [n]).
Proof.
  intros [B W] NE L. split.
  - rewrite nth_error_app1; [exact B|]. apply nth_error_Some. now rewrite B.
  - intros j m H. destruct (Nat.lt_ge_cases j (length ns)) as [Lj|Lj].
    + rewrite nth_error_app1 in H by exact Lj. auto.
    + rewrite nth_error_app2 in H by exact Lj. destruct (j - length ns)%nat as [|i] eqn:E; [|destruct i; discriminate]. cbn in H. injection H as <-.
      assert (j = length ns) by lia. subst. auto.
Qed.
Lemma sensible_snoc ns d out n r : sensible ns d out -> wreads n <> [] -> (forall p, In p (wreads n) -> (p < length ns)%nat) ->
  node_params ns d n -> node_figures d (with_out out (length ns) r) (length ns) n -> sensible (ns ++ [n]) d (with_out out (length ns) r).
Proof.
  intros SE NE L P F. split; [apply wf_snoc; auto; apply SE|].
  assert (PA : forall m, (forall p, In p (wreads m) -> (p < length ns)%nat) -> node_params ns d m -> node_params (ns ++ [n]) d m).
  { intros m B. destruct m as [| | |k own p]; cbn [node_params]; auto. unfold w_deep. rewrite (wat_app _ _ ns [n] p) by (apply B; now left). auto. }
  intros j m H. destruct (Nat.lt_ge_cases j (length ns)) as [Lj|Lj].
  - rewrite nth_error_app1 in H by exact Lj. destruct (proj2 SE j m H) as [Pm Fm].
    assert (B : forall p, In p (wreads m) -> (p < j)%nat) by (intros p I; exact (wf_below ns j m p (proj1 SE) H I)).
    split; [apply PA; [intros p I; specialize (B p I); lia|exact Pm]|].
    destruct m as [|skip own tfm p|un df tfm ps|k own p]; cbn [node_figures] in *; rewrite (out_old out (length ns) r j Lj); auto.
    + rewrite out_old; [exact Fm|]. specialize (B p (or_introl eq_refl)). lia.
    + destruct Fm as [F1 F2]. split; [exact F1|]. intros k Lk. destruct (F2 k Lk) as [G1 G2]. split; [exact G1|]. rewrite <- G2. f_equal. apply map_ext_in.
      intros p I. rewrite out_old; [reflexivity|]. specialize (B p I). lia.
    + rewrite out_old; [exact Fm|]. specialize (B p (or_introl eq_refl)). lia.
  - rewrite nth_error_app2 in H by exact Lj. destruct (j - length ns)%nat as [|i] eqn:E; [|destruct i; discriminate]. cbn in H. injection H as <-.
    assert (j = length ns) by lia. subst. auto.
Qed.

(** ** MACD *)
(* p.ema(a) - p.ema(b), its ema(c), and their difference *)
Definition macd (own : option xq) (a b c : ema_degree xq) : list (wnode xq) :=
  [WBase; WScan (LEma a) own 0; WScan (LEma b) own 0; WAgg false None sub_f [1; 2]; WScan (LEma c) own 3; WAgg false None sub_f [3; 4]]%nat.
Definition ema_of (a : ema_degree xq) (d : list (Qc * Qc)) : list (Qc * Qc) := layer_out (LEma a) d.
Definition minus (r t : list (Qc * Qc)) : list (Qc * Qc) := table r (fun k => (at_y r k - at_y t k)%Qc).
Definition macd_line a b d := minus (ema_of a d) (ema_of b d).
Definition macd_signal a b c d := ema_of c (macd_line a b d).
Definition macd_out a b c (d : list (Qc * Qc)) : nat -> list (Qc * Qc) :=
  with_out (with_out (with_out (with_out (with_out (fun _ => d) 1 (ema_of a d)) 2 (ema_of b d)) 3 (macd_line a b d)) 4 (macd_signal a b c d)) 5 (minus (macd_line a b d) (macd_signal a b c d)).

Lemma sub_total q (vs : list num) : exists w, sub_f (Fin q) vs = Ok w.
Proof.
  unfold sub_f. generalize true, (@n_zero xq _). induction vs as [|[v|] vs IH]; intros f z; cbn; eauto.
Qed.
Lemma ema_len a d : length (ema_of a d) = length d.
Proof. apply layer_len. Qed.
Lemma ema_x a d k : (k < length d)%nat -> at_x (ema_of a d) k = at_x d k.
Proof. apply (layer_ema a d). Qed.
Lemma minus_len r t : length (minus r t) = length r.
Proof. apply table_len. Qed.
Lemma minus_figures d out j p1 p2 r t : out p1 = r -> out p2 = t -> out j = minus r t -> length r = length d -> (forall k, (k < length d)%nat -> at_x r k = at_x d k) ->
  node_figures d out j (WAgg false None sub_f [p1; p2]).
Proof.
  intros E1 E2 E3 L X. cbn [node_figures]. rewrite E3. split; [rewrite minus_len; exact L|]. intros k Lk. unfold minus.
  rewrite table_x, table_y by lia. split; [now apply X|]. cbn [map]. rewrite E1, E2, sub_f_two. reflexivity.
Qed.
Theorem macd_sensible own a b c d : sound_layer (LEma a) -> sound_layer (LEma b) -> sound_layer (LEma c) -> step_ok own d ->
  sensible (macd own a b c) d (macd_out a b c d).
Proof.
  intros A B C O. unfold macd, macd_out.
  assert (S1 : sensible [WBase; WScan (LEma a) own 0] d (with_out (fun _ => d) 1 (ema_of a d))).
  { apply (sensible_snoc [WBase]); [apply sensible_base|discriminate|intros p [<-|[]]; cbn; lia| |reflexivity].
    split; [exact A|]. split; [exact O|]. intros _. right. cbn. lia. }
  assert (S2 : sensible [WBase; WScan (LEma a) own 0; WScan (LEma b) own 0] d (with_out (with_out (fun _ => d) 1 (ema_of a d)) 2 (ema_of b d))).
  { apply (sensible_snoc [WBase; WScan (LEma a) own 0]); [exact S1|discriminate|intros p [<-|[]]; cbn; lia| |reflexivity].
    split; [exact B|]. split; [exact O|]. intros _. right. cbn. lia. }
  assert (S3 : sensible [WBase; WScan (LEma a) own 0; WScan (LEma b) own 0; WAgg false None sub_f [1; 2]%nat] d
     (with_out (with_out (with_out (fun _ => d) 1 (ema_of a d)) 2 (ema_of b d)) 3 (macd_line a b d))).
  { apply (sensible_snoc [WBase; WScan (LEma a) own 0; WScan (LEma b) own 0]); [exact S2|discriminate|intros p [<-|[<-|[]]]; cbn; lia| |].
    - cbn [node_params]. intros q vs _. apply sub_total.
    - apply minus_figures with (r := ema_of a d) (t := ema_of b d); try reflexivity; [apply ema_len|apply ema_x]. }
  assert (S4 : sensible [WBase; WScan (LEma a) own 0; WScan (LEma b) own 0; WAgg false None sub_f [1; 2]%nat; WScan (LEma c) own 3] d
     (with_out (with_out (with_out (with_out (fun _ => d) 1 (ema_of a d)) 2 (ema_of b d)) 3 (macd_line a b d)) 4 (macd_signal a b c d))).
  { apply (sensible_snoc [WBase; WScan (LEma a) own 0; WScan (LEma b) own 0; WAgg false None sub_f [1; 2]%nat]); [exact S3|discriminate|intros p [<-|[]]; cbn; lia| |reflexivity].
    split; [exact C|]. split; [exact O|]. intros _. right. cbn. lia. }
  apply (sensible_snoc [WBase; WScan (LEma a) own 0; WScan (LEma b) own 0; WAgg false None sub_f [1; 2]%nat; WScan (LEma c) own 3]); [exact S4|discriminate|intros p [<-|[<-|[]]]; cbn; lia| |].
  - cbn [node_params]. intros q vs _. apply sub_total.
  - apply minus_figures with (r := macd_line a b d) (t := macd_signal a b c d); try reflexivity.
    + unfold macd_line. rewrite minus_len. apply ema_len.
    + intros k L. unfold macd_line, minus. rewrite table_x by (rewrite ema_len; exact L). now apply ema_x.
Qed.

(** the histogram at a point *)
Theorem macd_at own a b c ns s g d fuel k : weave ns s g -> ns = macd own a b c -> p_pts s = dots d -> equally_spaced (dots d) -> coarse min_step (dots d) ->
  sound_layer (LEma a) -> sound_layer (LEma b) -> sound_layer (LEma c) -> step_ok own d -> (length d < fuel)%nat -> (k < length d)%nat ->
  snd (sc_y (w_curve fuel (p_crv s) ns 3) (Fin (at_x d k)) g) = Ok (Some (Fin (at_y (ema_of a d) k - at_y (ema_of b d) k)%Qc)) /\
  snd (sc_y (w_curve fuel (p_crv s) ns 5) (Fin (at_x d k)) g) =
    Ok (Some (Fin (at_y (ema_of a d) k - at_y (ema_of b d) k - at_y (ema_of c (macd_line a b d)) k)%Qc)).
Proof.
  intros H -> D ES CS A B C O Lf Lk.
  assert (SP : spun (macd own a b c) s d (macd_out a b c d)) by (split; [exact D|]; split; [exact ES|]; split; [exact CS|]; now apply macd_sensible).
  assert (E : at_y (macd_line a b d) k = (at_y (ema_of a d) k - at_y (ema_of b d) k)%Qc) by (unfold macd_line, minus; apply table_y; rewrite ema_len; exact Lk).
  split.
  - rewrite (weave_point _ s g H d _ SP fuel Lf 3 k) by (cbn; lia || exact Lk). change (macd_out a b c d 3) with (macd_line a b d). now rewrite E.
  - rewrite (weave_point _ s g H d _ SP fuel Lf 5 k) by (cbn; lia || exact Lk). change (macd_out a b c d 5) with (minus (macd_line a b d) (macd_signal a b c d)).
    unfold minus at 1. rewrite table_y by (unfold macd_line; rewrite minus_len, ema_len; exact Lk). rewrite E. reflexivity.
Qed.

Lemma line_table a b d : macd_line a b d = table d (fun k => at_y (ema_of a d) k - at_y (ema_of b d) k)%Qc.
Proof.
  unfold macd_line, minus. unfold table. rewrite ema_len. apply map_ext_in. intros k I. apply in_seq in I. now rewrite ema_x by lia.
Qed.
Theorem macd_shows own a b c ns s g d fuel k : weave ns s g -> ns = macd own a b c -> p_pts s = dots d -> equally_spaced (dots d) -> coarse min_step (dots d) ->
  sound_layer (LEma a) -> sound_layer (LEma b) -> sound_layer (LEma c) -> step_ok own d -> (length d < fuel)%nat -> (k < length d)%nat ->
  let line := table d (fun k => at_y (layer_out (LEma a) d) k - at_y (layer_out (LEma b) d) k)%Qc in
  snd (sc_y (w_curve fuel (p_crv s) ns 3) (Fin (at_x d k)) g) = Ok (Some (Fin (at_y line k))) /\
  snd (sc_y (w_curve fuel (p_crv s) ns 5) (Fin (at_x d k)) g) = Ok (Some (Fin (at_y line k - at_y (layer_out (LEma c) line) k)%Qc)).
Proof.
  intros H E D ES CS A B C O Lf Lk line. destruct (macd_at own a b c ns s g d fuel k H E D ES CS A B C O Lf Lk) as [X Y].
  assert (L : line = macd_line a b d) by (symmetry; apply line_table).
  assert (Ly : at_y line k = (at_y (ema_of a d) k - at_y (ema_of b d) k)%Qc) by (unfold line; now rewrite table_y).
  rewrite Ly, X, Y, L. split; reflexivity.
Qed.

(** ** A concrete history *)
Definition da : ema_degree xq := EmaAlpha (fr 1 2).
Definition db : ema_degree xq := EmaPeriod (fz 4).
Definition dc : ema_degree xq := EmaPeriod (fz 2).
Definition twice (x : xq) (v : num) : res num := Ok (match v with Some y => Some (xq_add y y) | None => None end).
Definition mns6 : list (wnode xq) := macd own da db dc ++ [WMap true own twice 5].
(* and Curve.first([that, p]), curve.py:681-697 *)
Definition mns : list (wnode xq) := mns6 ++ [WAgg true None first_val [6; 0]%nat].
Definition mout6 d : nat -> list (Qc * Qc) :=
  with_out (macd_out da db dc d) 6 (table d (fun k => at_y (macd_out da db dc d 5) k + at_y (macd_out da db dc d 5) k)%Qc).
Definition mout d : nat -> list (Qc * Qc) := with_out (mout6 d) 7 (mout6 d 6).
Lemma mns6_sensible d : coarseb min_step (dots d) = true -> sensible mns6 d (mout6 d).
Proof.
  intros C. assert (SA : sound_layer (LEma da)) by (now exists (Q2Qc (1 # 2))). assert (SB : sound_layer (LEma db)) by (apply sound_period; reflexivity).
  assert (SC : sound_layer (LEma dc)) by (apply sound_period; reflexivity). pose proof (own_ok d C) as O.
  apply (sensible_snoc (macd own da db dc)); [now apply macd_sensible|discriminate|intros p [<-|[]]; cbn; lia| |].
  - split; [exact O|]. intros q v _. unfold twice. eauto.
  - cbn [node_figures length]. change (length (macd own da db dc)) with 6%nat. rewrite out_new. rewrite out_old by lia. rewrite table_len. split; [reflexivity|].
    intros k L. rewrite table_x, table_y by exact L. split; reflexivity.
Qed.
Lemma mns_sensible d : coarseb min_step (dots d) = true -> sensible mns d (mout d).
Proof.
  intros C. apply (sensible_snoc mns6); [now apply mns6_sensible|discriminate|intros p [<-|[<-|[]]]; cbn; lia| |].
  - cbn [node_params]. intros q vs _. unfold first_val. eauto.
  - cbn [node_figures]. change (length mns6) with 7%nat. cbn [map]. rewrite out_new. rewrite !out_old by lia.
    change (mout6 d 6%nat) with (table d (fun k => at_y (macd_out da db dc d 5) k + at_y (macd_out da db dc d 5) k)%Qc).
    rewrite table_len. split; [reflexivity|]. intros k L. rewrite table_x, table_y by exact L. split; reflexivity.
Qed.
Definition ms0 : npts := cs0.
Definition ms1 : npts := cs.
Lemma ms0_spun ns out d : d = cd0 -> sensible ns d out -> spun ns ms0 d out.
Proof.
  intros -> SE. destruct (evenb_sound min_step 1 1 ms0 cd0 ltac:(vm_compute; reflexivity)) as (A & B & C). split; [exact A|]. split; [exact B|]. split; [exact C|exact SE].
Qed.
Lemma ms1_spun ns out d : d = cd -> sensible ns d out -> spun ns ms1 d out.
Proof.
  intros -> SE. destruct (evenb_sound min_step 1 1 ms1 cd ltac:(vm_compute; reflexivity)) as (A & B & C). split; [exact A|]. split; [exact B|]. split; [exact C|exact SE].
Qed.
Definition qy ns (s : npts) (j : nat) (x : xq) (g : gst xq) : gst xq := fst (sc_y (w_curve 9 (p_crv s) ns j) x g).
(** the network is made, some of its curves asked; a point appended; another asked *)
Definition mg0 : gst xq := qy mns ms0 4 (fz 2) (qy mns ms0 6 (fr 5 2) (repeat blank 8)).
Definition mg1 : gst xq := match w_tell mns 9 mg0 cevs with Ok (g, _) => g | Err _ => [] end.
Definition mlog := match w_tell mns 9 mg0 cevs with Ok (_, log) => log | Err _ => [] end.
Definition mg : gst xq := qy mns ms1 2 (fz 3) mg1.
Lemma blank_weave : weave mns ms0 (repeat blank 8).
Proof.
  assert (SE := mns_sensible cd0 ltac:(vm_compute; reflexivity)).
  assert (W : wf mns) by apply SE.
  assert (P : forall k, (1 <= k <= 8)%nat -> weave (firstn k mns) ms0 (repeat blank k)).
  { induction k as [|k IH]; intros L; [lia|]. destruct k as [|k]; [apply wv_base; exact cs0_honest|].
    assert (E : firstn (S (S k)) mns = firstn (S k) mns ++ [nth (S k) mns WBase]).
    { destruct k as [|[|[|[|[|[|[|k]]]]]]]; try reflexivity. lia. }
    assert (ER : repeat (@blank xq _) (S (S k)) = repeat blank (S k) ++ [blank]) by (change [@blank xq _] with (repeat (@blank xq _) 1); rewrite <- repeat_app; f_equal; lia).
    rewrite E, ER. apply wv_new; [apply IH; lia|]. rewrite <- E. clear -W L.
    assert (F : forall m, wf (mns) -> (1 <= m <= 8)%nat -> wf (firstn m mns)).
    { intros m [B WW] Lm. split; [destruct m; [lia|reflexivity]|]. intros j n H. apply WW.
      rewrite <- (firstn_skipn m mns). rewrite nth_error_app1; [exact H|]. apply nth_error_Some. congruence. }
    apply F; [exact W|lia]. }
  exact (P 8%nat ltac:(lia)).
Qed.
Lemma mg0_weave : weave mns ms0 mg0.
Proof.
  assert (SP : spun mns ms0 cd0 (mout cd0)) by (apply ms0_spun; [reflexivity|apply mns_sensible; vm_compute; reflexivity]).
  unfold mg0, qy. eapply (wv_ask 9); [|exact SP|vm_compute; lia| |eapply as_y; apply pair2]; [|cbn; lia].
  eapply (wv_ask 9); [exact blank_weave|exact SP|vm_compute; lia| |eapply as_y; apply pair2]. cbn; lia.
Qed.
Lemma cs_es : p_uniform cs = true -> equally_spaced (p_pts cs).
Proof. intros _. destruct cs_spread as (-> & ES & _). exact ES. Qed.
Lemma told_ok : exists g log, w_tell mns 9 mg0 cevs = Ok (g, log).
Proof.
  destruct (weave_notifies 9 mns ms0 mg0 _ _ _ mg0_weave (Logic.I : op_ok (OAppend (QcofZ 4) (nv (-9)))) cs_op) as (g' & LB & LE & E & _); [|cbn; lia|eauto].
  exact cs_es.
Qed.
Lemma mg_weave : weave mns ms1 mg.
Proof.
  assert (SP : spun mns ms1 cd (mout cd)) by (apply ms1_spun; [reflexivity|apply mns_sensible; vm_compute; reflexivity]).
  unfold mg, qy. eapply (wv_ask 9); [|exact SP|vm_compute; lia| |eapply as_y; apply pair2]; [|cbn; lia].
  destruct told_ok as (g & log & E). assert (E1 : mg1 = g) by (unfold mg1; now rewrite E). rewrite E1.
  eapply (wv_op 9); [exact mg0_weave|exact (Logic.I : op_ok (OAppend (QcofZ 4) (nv (-9))))|exact cs_op| |cbn; lia|exact E].
  exact cs_es.
Qed.
Definition yv j x := snd (sc_y (w_curve 9 (p_crv ms1) mns j) x mg).
(** the previous point of a curve that was asked for y there *)
Definition pv j x := snd (sc_prev (w_curve 9 (p_crv ms1) mns j) x (Some (Fin min_step)) None (qy mns ms1 j x mg)).
Lemma mg_values : yv 3 (fz 4) = Ok (Some (fr (-39) 16)) /\ yv 4 (fz 4) = Ok (Some (fr (-29) 32)) /\ yv 6 (fz 3) = Ok (Some (fr 1 4)) /\
  yv 6 (fz 4) = Ok (Some (fr (-49) 16)) /\ yv 6 (fr 7 2) = Ok (Some (fr (-45) 32)) /\ yv 6 (fz 5) = Ok None /\
  yv 7 (fr 7 2) = Ok (Some (fr (-45) 32)).
Proof. split; [val|]. split; [val|]. split; [val|]. split; [val|]. split; [val|]. split; [val|]. val. Qed.
(** the last curve hears of one beginning and four ends *)
Definition heard (j : nat) (e : bool) (log : list (Graph.entry xq)) : nat :=
  length (filter (fun en => (Graph.l_node en =? j)%nat && Bool.eqb (Graph.l_end en) e) log).
Lemma mlog_counts : heard 6 false mlog = 1%nat /\ heard 6 true mlog = 4%nat /\ heard 3 false mlog = 2%nat /\ heard 3 true mlog = 2%nat.
Proof. vm_compute. repeat split. Qed.
Lemma uneven : exists ns s g o s' evs g' log j, weave ns s g /\ op_ok o /\ run_op s o = (s', evs, Ok tt) /\ w_tell ns 9 g evs = Ok (g', log) /\
  heard j false log = 1%nat /\ heard j true log = 4%nat.
Proof.
  destruct told_ok as (g & log & E). assert (EL : mlog = log) by (unfold mlog; now rewrite E).
  exists mns, ms0, mg0, (OAppend (QcofZ 4) (nv (-9))), cs, cevs, g, log, 6%nat. split; [exact mg0_weave|]. split; [exact Logic.I|]. split; [exact cs_op|]. split; [exact E|].
  rewrite <- EL. split; apply mlog_counts.
Qed.
