(** Concrete chains of accumulating curves. *)
From Coq Require Import List ZArith QArith Qcanon Bool Lia.
From Verif Require Import Base Num NumFacts Interval IntervalFacts Curve Points PointsSpec PointsQuery PointsOps PointsDec PointsHist PointsRefute PointsTop PointsEx.
From Verif Require Import BaseEx Combine CombineEx Scan ScanFacts ScanSource ScanInv ScanTf SmaFacts SmaInv ScanTop ScanEx Tower TowerFacts TowerTop TowerHist TowerMean.
Import ListNotations.

Definition own : option xq := Some (Fin min_step).
Definition asky ks (s : npts) (x : xq) (t : TS xq ks) : TS xq ks := fst (sc_y (tower 9 (p_crv s) ks) x t).
Definition spreadb (x h : Qc) (s : npts) (d : list (Qc * Qc)) : bool := evenb min_step x h s d.
Lemma spread_intro x h ks s d : spreadb x h s d = true -> chain_ok ks d -> spread ks s d.
Proof. intros H C. destruct (evenb_sound _ _ _ _ _ H) as (A & B & D). repeat split; auto. Qed.
Lemma own_ok d : coarseb min_step (dots d) = true -> exists m, own = Some (Fin m) /\ (0 < m)%Qc /\ coarse m (dots d).
Proof. intros H. exists min_step. split; [reflexivity|]. split; [reflexivity|]. now apply coarseb_sound. Qed.
Lemma asky_chained ks s d x t : chained ks s t -> spread ks s d -> (length d < 9)%nat -> chained ks s (asky ks s x t).
Proof. intros H SP L. eapply ch_ask; [exact H|exact SP|exact L|]. eapply ak_y. apply pair2. Qed.
Lemma below_chained k o ks s d x t a : chained ((k, o) :: ks) s (t, a) -> spread ((k, o) :: ks) s d -> (length d < 9)%nat ->
  chained ((k, o) :: ks) s (asky ks s x t, a).
Proof. intros H SP L. eapply ch_ask; [exact H|exact SP|exact L|]. apply ak_below. eapply ak_y. apply pair2. Qed.

Lemma op_chained ks s t o s' evs : chained ks s t -> op_ok o -> run_op s o = (s', evs, Ok tt) ->
  (p_uniform s' = true -> equally_spaced (p_pts s')) -> chained ks s' (fst (fst (tower_events ks t evs))).
Proof. intros. eapply ch_op; eauto. apply pair31. Qed.

(** *** the largest of two of an average of an integral *)
Definition cl0 : list (xq * num) := [(fz 1, nv 1); (fz 2, nv 5); (fz 3, nv 3)].
Definition cd0 := zd [(1, 1); (2, 5); (3, 3)]%Z.
Definition cs0 : npts := st (p_init cl0 ILinear true).
Definition cs : npts := st (p_append cs0 (fz 4, nv (-9))).
Definition cevs := evs_of (p_append cs0 (fz 4, nv (-9))).
Definition cd := zd [(1, 1); (2, 5); (3, 3); (4, -9)]%Z.
Definition h1 : chain xq := [(LInt (Fin hf) ILinear (fz 5), own)].
Definition h2 : chain xq := (LEma (EmaPeriod (fz 2)), own) :: h1.
Definition h3 : chain xq := (LMap 2 (fun _ => py_max), own) :: h2.
Lemma cs0_honest : honest_history cs0.
Proof.
  apply uniform_honest. apply uh_init with (l := cl0) (ip := ILinear) (evs := evs_of (p_init cl0 ILinear true)).
  - apply ascb_sound; vm_compute; reflexivity.
  - apply (eqsb_sound _ (QcofZ 1) (QcofZ 1)); vm_compute; reflexivity.
  - reflexivity.
Qed.
Lemma sound_int : sound_layer (LInt (Fin hf) ILinear (fz 5)).
Proof. exists hf, (QcofZ 5). split; [reflexivity|]. split; [reflexivity|exact hf_ok]. Qed.
Lemma sound_period z : (0 < QcofZ z)%Qc -> sound_layer (LEma (EmaPeriod (fz z))).
Proof. intros H. exists (QcofZ z). auto. Qed.
Lemma sound_max : sound_layer (LMap 2 (fun _ => py_max)).
Proof. split; [lia|]. intros x y ys. eexists. apply (max_computes x y ys). Qed.
Lemma far_zero d : forallb (fun k => negb (Qcleb (at_x d k) 0 && Qcleb 0 (at_x d k))) (seq 0 (length d)) = true ->
  forall j, (j < length d)%nat -> at_x d j <> 0%Qc.
Proof.
  intros H j L E. rewrite forallb_forall in H. specialize (H j ltac:(apply in_seq; lia)). rewrite E in H. discriminate.
Qed.
Lemma h3_ok d : coarseb min_step (dots d) = true -> forallb (fun k => negb (Qcleb (at_x d k) 0 && Qcleb 0 (at_x d k))) (seq 0 (length d)) = true -> chain_ok h3 d.
Proof.
  intros C Z. pose proof (own_ok d C) as O. cbn [chain_ok h3 h2 h1].
  split; [exact sound_max|]. split; [exact O|]. split; [intros _ _; now apply far_zero|].
  split; [apply sound_period; reflexivity|]. split; [exact O|]. split; [cbn; intros; lia|].
  split; [exact sound_int|]. split; [exact O|]. split; [cbn; intros; lia|exact Logic.I].
Qed.
Lemma cs0_spread : spread h3 cs0 cd0.
Proof. apply (spread_intro 1 1); [vm_compute; reflexivity|]. apply h3_ok; vm_compute; reflexivity. Qed.
Lemma cs_spread : spread h3 cs cd.
Proof. apply (spread_intro 1 1); [vm_compute; reflexivity|]. apply h3_ok; vm_compute; reflexivity. Qed.
Lemma cs_op : run_op cs0 (OAppend (QcofZ 4) (nv (-9))) = (cs, cevs, Ok tt).
Proof. unfold run_op, cs, st, cevs, evs_of, fz. apply pair3. vm_compute. reflexivity. Qed.
(** the integral asked at 2, the average made and asked at 3, the largest made
    and asked at 5/2, a point appended, the average asked at 1 *)
Definition ct1 : TS xq h1 := asky h1 cs0 (fz 2) (tower_init h1).
Definition ct2 : TS xq h2 := asky h2 cs0 (fz 3) (ct1, acc_init ILinear true).
Definition ct3 : TS xq h3 := asky h3 cs0 (fr 5 2) (ct2, acc_init ILinear true).
Definition ct4 : TS xq h3 := fst (fst (tower_events h3 ct3 cevs)).
Definition ct : TS xq h3 := (asky h2 cs (fz 1) (fst ct4), snd ct4).
Lemma ct_chained : chained h3 cs ct.
Proof.
  pose proof cs0_spread as S3. pose proof (spread_below _ _ _ _ _ S3) as S2. pose proof (spread_below _ _ _ _ _ S2) as S1.
  assert (L : (length cd0 < 9)%nat) by (vm_compute; lia).
  assert (E : chained h3 cs0 ct3).
  { apply asky_chained with cd0; auto. apply ch_new. apply asky_chained with cd0; auto. apply ch_new.
    apply asky_chained with cd0; auto. apply (ch_new _ _ []). apply ch_base. exact cs0_honest. }
  unfold ct. assert (E4 : chained h3 cs ct4).
  { unfold ct4. apply (op_chained h3 cs0 ct3 (OAppend (QcofZ 4) (nv (-9))) cs cevs); [exact E|exact Logic.I| |].
    - exact cs_op.
    - intros _. destruct cs_spread as (-> & ES & _). exact ES. }
  rewrite (pair2 ct4) in E4. unfold h3 in *. eapply below_chained; [exact E4|exact cs_spread|vm_compute; lia].
Qed.

(** *** a point at x = 0: the answer depends on what was asked before *)
Definition zl : list (xq * num) := [(fz (-1), nv 0); (fz 0, nv 4); (fz 1, nv 12); (fz 2, nv 0)].
Definition zd0 := zd [(-1, 0); (0, 4); (1, 12); (2, 0)]%Z.
Definition zd1 := zd [(-1, 0); (0, 4); (1, 12); (2, 1)]%Z.
Definition zs0 : npts := st (p_init zl ILinear true).
Definition zs : npts := st (p_replace zs0 (fz 2, nv 1) false).
Definition zevs := evs_of (p_replace zs0 (fz 2, nv 1) false).
Definition al1 : ema_degree xq := EmaAlpha (fz 1).
Definition k1 : chain xq := [(LEma al1, own)].
Definition k2 : chain xq := (LEma al1, own) :: k1.
Definition k3 : chain xq := (LEma (EmaPeriod (fz 4)), own) :: k2.
Lemma zs0_honest : honest_history zs0.
Proof.
  apply uniform_honest. apply uh_init with (l := zl) (ip := ILinear) (evs := evs_of (p_init zl ILinear true)).
  - apply ascb_sound; vm_compute; reflexivity.
  - apply (eqsb_sound _ (QcofZ (-1)) (QcofZ 1)); vm_compute; reflexivity.
  - reflexivity.
Qed.
Lemma k2_ok d : coarseb min_step (dots d) = true -> chain_ok k2 d.
Proof.
  intros C. pose proof (own_ok d C) as O. cbn [chain_ok k2 k1].
  split; [now exists (QcofZ 1)|]. split; [exact O|]. split; [cbn; intros; lia|].
  split; [now exists (QcofZ 1)|]. split; [exact O|]. split; [cbn; intros; lia|exact Logic.I].
Qed.
Lemma zs0_spread : spread k2 zs0 zd0.
Proof. apply (spread_intro (QcofZ (-1)) 1); [vm_compute; reflexivity|]. apply k2_ok; vm_compute; reflexivity. Qed.
Lemma zs_spread : spread k2 zs zd1.
Proof. apply (spread_intro (QcofZ (-1)) 1); [vm_compute; reflexivity|]. apply k2_ok; vm_compute; reflexivity. Qed.
Definition t1 : TS xq k2 := asky k2 zs0 (fz 1) (tower_init k2).
Definition t2 : TS xq k2 := (asky k1 zs0 (fz 2) (fst t1), snd t1).
Definition t3 : TS xq k2 := fst (fst (tower_events k2 t2 zevs)).
Definition t4 : TS xq k2 := (asky k1 zs (fz (-1)) (fst t3), snd t3).
Lemma t4_chained : chained k2 zs t4.
Proof.
  pose proof zs0_spread as S2. pose proof (spread_below _ _ _ _ _ S2) as S1.
  assert (L : (length zd0 < 9)%nat) by (vm_compute; lia).
  assert (E : chained k2 zs0 t1).
  { apply asky_chained with zd0; auto. apply (ch_new _ _ k1), (ch_new _ _ []), ch_base. exact zs0_honest. }
  assert (E2 : chained k2 zs0 t2) by (rewrite (pair2 t1) in E; unfold k2 in *; eapply below_chained; [exact E|exact S2|exact L]).
  assert (E3 : chained k2 zs t3).
  { unfold t3. apply (op_chained k2 zs0 t2 (OReplace (QcofZ 2) (nv 1) false) zs zevs); [exact E2|exact Logic.I| |].
    - unfold run_op, zs, st, zevs, evs_of, fz. apply pair3. vm_compute. reflexivity.
    - intros _. destruct zs_spread as (-> & ES & _). exact ES. }
  rewrite (pair2 t3) in E3. unfold k2 in *. eapply below_chained; [exact E3|exact zs_spread|vm_compute; lia].
Qed.
Lemma zero_values : snd (sc_y (tower 9 (p_crv zs) k3) (fz 1) (t4, acc_init ILinear true)) = Ok (Some (fr 13 2)) /\
  snd (sc_y (tower 9 (p_crv zs) k3) (fz 1) (tower_init k3)) = Ok (Some (fr 15 4)) /\ at_y (chain_out k3 zd1) 2 = (QcofZ 15 / QcofZ 4)%Qc.
Proof. split; [val|]. split; [val|]. apply Qc_is_canon. vm_compute. reflexivity. Qed.
Lemma zero_wrong : exists k own ks s t d q, chained ((k, own) :: ks) s t /\ spread ks s d /\ sound_layer k /\
  own = Some (Fin min_step) /\ (length d < 9)%nat /\
  snd (sc_y (tower 9 (p_crv s) ((k, own) :: ks)) (Fin q) t) = Ok (Some (fr 13 2)) /\
  snd (sc_y (tower 9 (p_crv s) ((k, own) :: ks)) (Fin q) (tower_init ((k, own) :: ks))) = Ok (Some (fr 15 4)) /\
  ~ traces ILinear (chain_out ((k, own) :: ks) d) (fun x => snd (sc_y (tower 9 (p_crv s) ((k, own) :: ks)) x t)).
Proof.
  exists (LEma (EmaPeriod (fz 4))), own, k2, zs, (t4, acc_init ILinear true), zd1, (QcofZ 1). destruct zero_values as (A & B & C).
  split; [apply ch_new; exact t4_chained|]. split; [exact zs_spread|]. split; [apply sound_period; reflexivity|]. split; [reflexivity|].
  split; [vm_compute; lia|]. split; [exact A|]. split; [exact B|].
  intros (T1 & _). specialize (T1 2%nat ltac:(vm_compute; lia)).
  assert (X : at_x (chain_out k3 zd1) 2 = QcofZ 1) by (apply Qc_is_canon; vm_compute; reflexivity).
  change ((LEma (EmaPeriod (fz 4)), own) :: k2) with k3 in T1. rewrite X, C in T1. fold (fz 1) in T1. rewrite A in T1.
  vm_compute in T1. discriminate T1.
Qed.

(** *** an EMA over an SMA *)
Definition sl : list (xq * num) := [(fz 1, nv 1); (fz 2, nv 2); (fz 3, nv 4); (fz 4, nv 8); (fz 5, nv 16); (fz 6, nv 32)].
Definition ss0 : npts := st (p_init sl ILinear true).
Definition ss : npts := st (p_replace ss0 (fz 6, nv 0) false).
Definition sevs := evs_of (p_replace ss0 (fz 6, nv 0) false).
Definition sm s : scrv xq (acc xq num) := sma_src 3 9 (Fin hf) (p_crv s) own (SmaDegree 2).
Definition em s : scrv xq (acc xq num * acc xq num) := over 9 (sm s) own own (LEma (EmaAlpha (Fin hf))).
(** both told of a change of the points *)
Definition told (u : acc xq num * acc xq num) (evs : list (ev xq)) : acc xq num * acc xq num :=
  let '(a, out, _) := acc_events (fst u) evs in (a, fst (fst (acc_events (snd u) out))).
Definition u0 : acc xq num * acc xq num := (acc_init ILinear true, acc_init ILinear true).
(** the states after asking the EMA, and after asking the SMA *)
Definition em_asked s x (u : acc xq num * acc xq num) : acc xq num * acc xq num := fst (sc_y (em s) x u).
Definition sm_asked s x (u : acc xq num * acc xq num) : acc xq num * acc xq num := (fst (sc_y (sm s) x (fst u)), snd u).
Definition u3 := told (sm_asked ss0 (fz 6) (em_asked ss0 (fz 2) u0)) sevs.
Definition u4 := sm_asked ss (fz 6) u3.
Lemma ss0_honest : honest_history ss0.
Proof.
  apply uniform_honest. apply uh_init with (l := sl) (ip := ILinear) (evs := evs_of (p_init sl ILinear true)).
  - apply ascb_sound; vm_compute; reflexivity.
  - apply (eqsb_sound _ (QcofZ 1) (QcofZ 1)); vm_compute; reflexivity.
  - reflexivity.
Qed.
Lemma ss_op : run_op ss0 (OReplace (QcofZ 6) (nv 0) false) = (ss, sevs, Ok tt).
Proof. unfold run_op, ss, st, sevs, evs_of, fz. apply pair3. vm_compute. reflexivity. Qed.
Lemma sma_first : snd (sc_y (em ss) (fz 6) u3) = Ok (Some (fr 257 32)) /\ snd (sc_y (em ss) (fz 6) u0) = Ok (Some (fr 257 32)) /\
  snd (sc_y (sm ss) (fz 6) (fst u3)) = Ok (Some (fz 8)) /\ snd (sc_y (em ss) (fz 6) u4) = Err EExc.
Proof. split; [val|]. split; [val|]. split; [val|]. vm_compute. reflexivity. Qed.
Lemma sma_wrong : exists s0 o s evs x1 x2 x3, honest_history s0 /\ run_op s0 o = (s, evs, Ok tt) /\
  exists u, u = told (sm_asked s0 x2 (em_asked s0 x1 u0)) evs /\
  (exists y, snd (sc_y (em s) x3 u) = Ok (Some y)) /\ (exists y, snd (sc_y (sm s) x3 (fst u)) = Ok (Some y)) /\
  snd (sc_y (em s) x3 (sm_asked s x3 u)) = Err EExc.
Proof.
  exists ss0, (OReplace (QcofZ 6) (nv 0) false), ss, sevs, (fz 2), (fz 6), (fz 6). destruct sma_first as (A & _ & B & C).
  split; [exact ss0_honest|]. split; [exact ss_op|]. exists u3. split; [reflexivity|].
  split; [exists (fr 257 32); exact A|]. split; [exists (fz 8); exact B|exact C].
Qed.

(** *** values of the first example *)
Lemma ct_values : snd (sc_y (tower 9 (p_crv cs) h3) (fz 1) ct) = Ok (nv 5) /\ snd (sc_y (tower 9 (p_crv cs) h3) (fz 2) ct) = Ok (Some (fr 13 2)) /\
  snd (sc_y (tower 9 (p_crv cs) h3) (fz 3) ct) = Ok (Some (fr 37 4)) /\ snd (sc_y (tower 9 (p_crv cs) h3) (fz 4) ct) = Ok (Some (fr 37 4)) /\
  snd (sc_y (tower 9 (p_crv cs) h3) (fz 5) ct) = Ok None.
Proof. repeat split; val. Qed.
(** a max of an EMA of EMA: mild *)
Definition m2 : chain xq := [(LMap 2 (fun _ => py_max), own); (LEma (EmaAlpha (Fin hf)), own)].
Lemma m2_mild : Forall (fun k => mild (fst k)) m2.
Proof.
  constructor; [|constructor; [|constructor]]; cbn [fst mild].
  - intros x y ys v E. rewrite (max_computes x y ys) in E. injection E as <-. apply (best_max (y :: ys)). discriminate.
  - split; intros X; vm_compute in X; discriminate.
Qed.
Lemma m2_ok d : coarseb min_step (dots d) = true -> chain_ok m2 d.
Proof.
  intros C. pose proof (own_ok d C) as O. cbn [chain_ok m2].
  split; [exact sound_max|]. split; [exact O|]. split; [cbn; intros; lia|].
  split; [now exists hf|]. split; [exact O|]. split; [cbn; intros; lia|exact Logic.I].
Qed.
Lemma m2_chained : chained m2 cs (tower_init m2).
Proof.
  apply (ch_new _ _ [_]), (ch_new _ _ []), ch_base. eapply (hh_op cs0 (OAppend (QcofZ 4) (nv (-9))) cs cevs); [exact cs0_honest|exact Logic.I|exact cs_op|].
  intros _. destruct cs_spread as (-> & ES & _). exact ES.
Qed.
Lemma m2_spread : spread m2 cs cd.
Proof. apply (spread_intro 1 1); [vm_compute; reflexivity|]. apply m2_ok; vm_compute; reflexivity. Qed.
Lemma cd_within : within (QcofZ (-9)) (QcofZ 5) cd.
Proof.
  apply within_at. intros k L. change (length cd) with 4%nat in L.
  destruct k as [|[|[|[|k]]]]; [..|lia]; split; apply Qcleb_true; vm_compute; reflexivity.
Qed.
