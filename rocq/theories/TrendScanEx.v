(** Trends over Points sources, and histories that the statements leave out. *)
From Coq Require Import List ZArith QArith Qcanon Bool Lia Sorting.Sorted.
From Verif Require Import Base Num NumFacts Interval Curve Points PointsSpec PointsDec PointsMut PointsTop PointsRefute PointsEx BaseTop BaseEx Graph Scan ScanTf ScanFacts ScanEx ExtremasFold ExtremasEx
  Trend TrendGeo TrendCol TrendCross TrendTop TrendEx TrendMoreEx TrendScan TrendScanFacts.
Import ListNotations.

Notation own1 := (Some (Fin min_step)).
Definition trq (s : npts) (t : tscan xq) (x : Z) := ts_y ceps cgold cgold2 fitted gg 50 50 (p_crv s) own1 t (Fin (QcofZ x)).
Definition trs (up : bool) (s : npts) (t : tscan xq) (x : Z) := ts_side ceps cgold cgold2 fitted gg up 50 50 (p_crv s) own1 t (Some (Fin (QcofZ x))).
Definition tre (t : tscan xq) evs := ts_events ceps cgold cgold2 fitted gg t evs.
Definition tlife := life min_step ceps cgold cgold2 fitted gg 50.

(** What is looked at: the numbers of points scanned and of lines answered. *)
Definition counts (o : tscan xq * res (option (list (tl xq)))) : option (nat * option nat) :=
  match o with (t, Ok a) => Some (length (r_pts (ts_tr t)), option_map (@length _) a) | _ => None end.

Definition bent : list (Z * Z) := [(0,0);(1,16);(2,4);(3,11);(4,28);(5,10);(6,33);(7,7);(8,31)]%Z.
Definition s_bent : npts := mk bent.
Definition s_zig : npts := mk zig.
Definition z1 := trq s_zig ts_new 12.
Definition rep := p_replace s_zig (fz 4, nv 11) false.
Definition more := p_append s_zig (fz 13, nv 5).
Definition is_counts (o : option (nat * option nat)) (n k : nat) : bool := match o with Some (a, Some b) => (a =? n)%nat && (b =? k)%nat | _ => false end.
Lemma counts_ok o n k : is_counts (counts o) n k = true -> exists t a, o = (t, Ok (Some a)) /\ length (r_pts (ts_tr t)) = n /\ length a = k.
Proof.
  destruct o as [t [[a|]|]]; try discriminate. cbn. intros H. apply andb_prop in H. destruct H as [A B]. apply Nat.eqb_eq in A, B. eauto 6.
Qed.
Lemma mk_tsrc l : PointsDec.ascb (pz l) && eqsb_from 0 1 (pz l) && match snd (p_init (pz l) ILinear true) with Ok _ => true | _ => false end
  && ptsb (p_pts (mk l)) (pz l) && coarseb min_step (pz l) && negb (length l =? 0)%nat = true -> tsrc min_step (mk l) (zs l).
Proof.
  rewrite !andb_true_iff. intros (((((A & B) & C) & D) & E) & F). apply ptsb_eq in D. constructor.
  - apply (mk_good l 0 1); auto. destruct (snd (p_init (pz l) ILinear true)) as [[]|]; [reflexivity|discriminate].
  - now rewrite <- pz_zs.
  - rewrite D. now apply coarseb_sound.
  - destruct l; [discriminate|]. discriminate.
Qed.
Lemma bent_src : tsrc min_step s_bent (zs bent).
Proof. apply mk_tsrc. vm_compute. reflexivity. Qed.
Lemma zig_src : tsrc min_step s_zig (zs zig).
Proof. apply mk_tsrc. vm_compute. reflexivity. Qed.
Lemma gg_len : exists q, g_len gg = Fin q.
Proof. eexists. reflexivity. Qed.
Lemma min_pos : (0 < min_step)%Qc.
Proof. reflexivity. Qed.

Lemma life_ask s l t x a : tlife s l t -> (length l < 50)%nat -> snd (trq s t x) = Ok a -> tlife s l (fst (trq s t x)).
Proof. intros L Lf E. apply (life_y min_step ceps cgold cgold2 fitted gg 50 s l t (QcofZ x) 50 (fst (trq s t x)) a L Lf). rewrite <- E. apply pair2. Qed.
Lemma counts_life s l t x n k : tlife s l t -> (length l < 50)%nat -> is_counts (counts (trq s t x)) n k = true -> tlife s l (fst (trq s t x)).
Proof.
  intros L Lf H. apply counts_ok in H. destruct H as (t' & a & E & _). apply (life_ask s l t x (Some a) L Lf). now rewrite E.
Qed.
Lemma z1_counts : is_counts (counts (trq s_zig ts_new 12)) 13 3 = true.
Proof. vm_compute. reflexivity. Qed.
Lemma zig_len : (length (zs zig) < 50)%nat.
Proof. apply Nat.ltb_lt. vm_compute. reflexivity. Qed.
Lemma z1_life : tlife s_zig (zs zig) (fst z1).
Proof. exact (counts_life s_zig (zs zig) ts_new 12 13 3 (life_new _ _ _ _ _ _ _ _ _ zig_src) zig_len z1_counts). Qed.
(** The answer with a point appended, after an answer without it. *)
Lemma more_ok : snd more = Ok tt.
Proof. vm_compute. reflexivity. Qed.
Lemma more_pts : p_pts (st more) = pz (zig ++ [(13, 5)%Z]).
Proof. apply ptsb_eq. vm_compute. reflexivity. Qed.
Lemma more_good : good (st more).
Proof.
  apply (p_append_good s_zig (QcofZ 13) (nv 5) (st more) (evs_of more)); [apply zig_src|vm_compute; reflexivity|]. apply pair3. exact more_ok.
Qed.
Lemma more_coarse : coarse min_step (p_pts (st more)).
Proof. rewrite more_pts. apply coarseb_sound. vm_compute. reflexivity. Qed.
Lemma more_life : exists t out, ts_events ceps cgold cgold2 fitted gg (fst z1) (evs_of more) = (t, out, Ok tt) /\ ts_tr t = ts_tr (fst z1) /\ tlife (st more) (zs zig ++ [(QcofZ 13, Some (QcofZ 5))]) t.
Proof.
  destruct (life_append_quiet min_step min_pos ceps cgold cgold2 fitted gg 50 gg_len fitted_fin s_zig (zs zig) (fst z1) [(QcofZ 13, Some (QcofZ 5))] (st more) (evs_of more) z1_life) as (t & E & T & L).
  - apply PointsDec.ascb_sound. vm_compute. reflexivity.
  - apply pair3. exact more_ok.
  - exact more_good.
  - exact more_coarse.
  - exists t. eexists. split; [exact E|]. auto.
Qed.

(** y(0) of a fresh Trend has no line; after y(8) it has one. *)
Section Generic.
Variables (s s' : npts) (l : list spt) (x y : Z).
Lemma fresh_gen n k : is_counts (counts (trq s ts_new x)) n k = true ->
  exists t a, ts_y ceps cgold cgold2 fitted gg 50 50 (p_crv s) own1 ts_new (Fin (QcofZ x)) = (t, Ok (Some a)) /\ length (r_pts (ts_tr t)) = n /\ length a = k.
Proof. exact (counts_ok _ n k). Qed.
Lemma rep_gen p : snd (p_replace s p false) = Ok tt -> p_replace s p false = (st (p_replace s p false), evs_of (p_replace s p false), Ok tt).
Proof. intros H. apply pair3. exact H. Qed.
Lemma order_gen : is_counts (counts (trq s ts_new x)) 5 0 = true -> is_counts (counts (trq s (fst (trq s ts_new x)) y)) 9 1 = true ->
  is_counts (counts (trq s (fst (trq s (fst (trq s ts_new x)) y)) x)) 9 1 = true ->
  exists t1 t2 t3 ls xs, ts_y ceps cgold cgold2 fitted gg 50 50 (p_crv s) own1 ts_new (Fin (QcofZ x)) = (t1, Ok (Some [])) /\ ts_y ceps cgold cgold2 fitted gg 50 50 (p_crv s) own1 t1 (Fin (QcofZ y)) = (t2, Ok (Some ls)) /\
    ts_y ceps cgold cgold2 fitted gg 50 50 (p_crv s) own1 t2 (Fin (QcofZ x)) = (t3, Ok (Some xs)) /\
    length xs = 1%nat /\ length (r_pts (ts_tr t1)) = 5%nat.
Proof.
  intros H1 H2 H3. destruct (counts_ok _ _ _ H1) as (t1 & a1 & E1 & N1 & A1). rewrite E1 in H2, H3. cbn [fst] in H2, H3.
  destruct (counts_ok _ _ _ H2) as (t2 & a2 & E2 & N2 & A2). rewrite E2 in H3. cbn [fst] in H3.
  destruct (counts_ok _ _ _ H3) as (t3 & a3 & E3 & N3 & A3). destruct a1; [|discriminate A1]. exists t1, t2, t3, a2, a3. auto.
Qed.
Definition okb {A} (r : res A) : bool := match r with Ok _ => true | _ => false end.
Lemma side_gen t n k : okb (snd (trs true s t y)) = true -> is_counts (counts (trq s (fst (trs true s t y)) x)) n k = true ->
  exists t1 a t2 b, ts_side ceps cgold cgold2 fitted gg true 50 50 (p_crv s) own1 t (Some (Fin (QcofZ y))) = (t1, Ok a) /\
    ts_y ceps cgold cgold2 fitted gg 50 50 (p_crv s) own1 t1 (Fin (QcofZ x)) = (t2, Ok (Some b)) /\ length (r_pts (ts_tr t2)) = n /\ length b = k.
Proof.
  intros H1 H2. destruct (trs true s t y) as [t1 [a|]] eqn:E1; [|discriminate H1]. cbn [fst] in H2. destruct (counts_ok _ _ _ H2) as (t2 & b & E2 & N2 & A2).
  exists t1, a, t2, b. exact (conj E1 (conj E2 (conj N2 A2))).
Qed.
Lemma told_gen t evs n k : okb (snd (tre t evs)) = true -> is_counts (counts (trq s' (fst (fst (tre t evs))) x)) n k = true ->
  exists t1 out t2 b, ts_events ceps cgold cgold2 fitted gg t evs = (t1, out, Ok tt) /\ ts_y ceps cgold cgold2 fitted gg 50 50 (p_crv s') own1 t1 (Fin (QcofZ x)) = (t2, Ok (Some b)) /\ length (r_pts (ts_tr t2)) = n /\ length b = k.
Proof.
  intros H1 H2. destruct (tre t evs) as [[t1 out] [[]|]] eqn:E1; [|discriminate H1]. cbn [fst] in H2. destruct (counts_ok _ _ _ H2) as (t2 & b & E2 & N2 & A2).
  exists t1, out, t2, b. exact (conj E1 (conj E2 (conj N2 A2))).
Qed.
End Generic.
Theorem order_matters : exists eps gold gold2 polyfit g m s l q t1 t2 t3 ls x xs, tsrc m s l /\
  ts_y eps gold gold2 polyfit g 50 50 (p_crv s) (Some (Fin m)) ts_new (Fin q) = (t1, Ok (Some [])) /\
  ts_y eps gold gold2 polyfit g 50 50 (p_crv s) (Some (Fin m)) t1 (Fin x) = (t2, Ok (Some ls)) /\
  ts_y eps gold gold2 polyfit g 50 50 (p_crv s) (Some (Fin m)) t2 (Fin q) = (t3, Ok (Some xs)) /\ length xs = 1%nat /\
  length (r_pts (ts_tr t1)) = 5%nat /\ length l = 9%nat.
Proof.
  destruct (order_gen s_bent 0 8) as (t1 & t2 & t3 & ls & xs & E1 & E2 & E3 & L & N); [vm_compute; reflexivity|vm_compute; reflexivity|vm_compute; reflexivity|].
  exists ceps, cgold, cgold2, fitted, gg, min_step, s_bent, (zs bent), (QcofZ 0), t1, t2, t3, ls, (QcofZ 8), xs.
  exact (conj bent_src (conj E1 (conj E2 (conj E3 (conj L (conj N eq_refl)))))).
Qed.
(** upper(x) before the first point makes the points be scanned again. *)
Theorem side_rescans : exists eps gold gold2 polyfit g m lf s l t q t1 a x t2 b t3 b', life m eps gold gold2 polyfit g lf s l t /\
  (forall p, In p l -> (q < fst p)%Qc) /\
  ts_side eps gold gold2 polyfit g true 50 lf (p_crv s) (Some (Fin m)) t (Some (Fin q)) = (t1, Ok a) /\
  ts_y eps gold gold2 polyfit g 50 lf (p_crv s) (Some (Fin m)) t1 (Fin x) = (t2, Ok (Some b)) /\
  length (r_pts (ts_tr t2)) = (2 * length l)%nat /\
  ts_y eps gold gold2 polyfit g 50 lf (p_crv s) (Some (Fin m)) ts_new (Fin x) = (t3, Ok (Some b')) /\ length b <> length b'.
Proof.
  destruct (fresh_gen s_zig 12 13 3 z1_counts) as (t3 & b' & E3 & _ & A3).
  destruct (side_gen s_zig 12 (-1) (fst z1) 26 4) as (t1 & a & t2 & b & E1 & E2 & N & A); [vm_compute; reflexivity|vm_compute; reflexivity|].
  assert (F : forallb (fun p : Qc * option Qc => Qcltb (QcofZ (-1)) (fst p)) (zs zig) = true) by (vm_compute; reflexivity).
  assert (D : length b <> length b') by (rewrite A, A3; clear; discriminate).
  exists ceps, cgold, cgold2, fitted, gg, min_step, 50%nat, s_zig, (zs zig), (fst z1), (QcofZ (-1)), t1, a, (QcofZ 12), t2, b, t3, b'.
  split; [exact z1_life|]. split; [|exact (conj E1 (conj E2 (conj N (conj E3 D))))].
  intros p Ip. rewrite forallb_forall in F. specialize (F p Ip). now apply Qcltb_true in F.
Qed.
(** So does the replacement of a point. *)
Theorem replace_rescans : exists eps gold gold2 polyfit g m lf s l t p s' evs t1 out x t2 b t3 b', life m eps gold gold2 polyfit g lf s l t /\
  p_replace s p false = (s', evs, Ok tt) /\ length (p_pts s') = 13%nat /\ ts_events eps gold gold2 polyfit g t evs = (t1, out, Ok tt) /\
  ts_y eps gold gold2 polyfit g 50 lf (p_crv s') (Some (Fin m)) t1 (Fin x) = (t2, Ok (Some b)) /\
  length (r_pts (ts_tr t2)) = 17%nat /\
  ts_y eps gold gold2 polyfit g 50 lf (p_crv s') (Some (Fin m)) ts_new (Fin x) = (t3, Ok (Some b')) /\ length b <> length b'.
Proof.
  assert (H3 : is_counts (counts (trq (st rep) ts_new 12)) 13 2 = true) by (vm_compute; reflexivity).
  destruct (fresh_gen (st rep) 12 13 2 H3) as (t3 & b' & E3 & _ & A3). clear H3.
  destruct (told_gen (st rep) 12 (fst z1) (evs_of rep) 17 3) as (t1 & out & t2 & b & E1 & E2 & N & A); [vm_compute; reflexivity|vm_compute; reflexivity|].
  assert (HR := rep_gen s_zig (fz 4, nv 11) ltac:(vm_compute; reflexivity)). fold rep in HR.
  assert (HL : (length (p_pts (st rep)) =? 13)%nat = true) by (vm_compute; reflexivity). apply Nat.eqb_eq in HL.
  assert (D : length b <> length b') by (rewrite A, A3; clear; discriminate).
  exists ceps, cgold, cgold2, fitted, gg, min_step, 50%nat, s_zig, (zs zig), (fst z1), (fz 4, nv 11), (st rep), (evs_of rep), t1, out, (QcofZ 12), t2, b, t3, b'.
  exact (conj z1_life (conj HR (conj HL (conj E1 (conj E2 (conj N (conj E3 D))))))).
Qed.

(** Histories for the statements. *)
Section Shown.
Variables (s : npts) (t : tscan xq) (x : Z).
Lemma shown_gen n k : is_counts (counts (trq s t x)) n (S k) = true ->
  exists t' a al, ts_y ceps cgold cgold2 fitted gg 50 50 (p_crv s) own1 t (Fin (QcofZ x)) = (t', Ok (Some (a :: al))) /\ length (r_pts (ts_tr t')) = n /\ length al = k.
Proof.
  intros H. destruct (counts_ok _ _ _ H) as (t' & a & E & N & A). destruct a as [|a al]; [discriminate A|]. injection A as A. exists t', a, al. exact (conj E (conj N A)).
Qed.
Definition noneb (o : tscan xq * res (option (list (tl xq)))) : bool := match snd o with Ok None => true | _ => false end.
Lemma none_gen : noneb (trq s t x) = true -> exists t', ts_y ceps cgold cgold2 fitted gg 50 50 (p_crv s) own1 t (Fin (QcofZ x)) = (t', Ok None).
Proof. intros H. unfold noneb in H. destruct (trq s t x) as [t' [[a|]|]] eqn:E; try discriminate H. exists t'. exact E. Qed.
Lemma side_shown up n : okb (snd (trs up s t x)) && (length (r_pts (ts_tr (fst (trs up s t x)))) =? n)%nat && match snd (trs up s t x) with Ok (_ :: _) => true | _ => false end = true ->
  exists t' a al, ts_side ceps cgold cgold2 fitted gg up 50 50 (p_crv s) own1 t (Some (Fin (QcofZ x))) = (t', Ok (a :: al)) /\ length (r_pts (ts_tr t')) = n.
Proof.
  rewrite !andb_true_iff. intros [[_ A] B]. destruct (trs up s t x) as [t' [[|a al]|]] eqn:E; try discriminate B. apply Nat.eqb_eq in A. exists t', a, al. exact (conj E A).
Qed.
End Shown.
Lemma zig_shown : exists t' a al, ts_y ceps cgold cgold2 fitted gg 50 50 (p_crv s_zig) own1 (fst z1) (Fin (QcofZ 12)) = (t', Ok (Some (a :: al))) /\
  length (r_pts (ts_tr t')) = 13%nat /\ length al = 2%nat.
Proof. apply shown_gen. vm_compute. reflexivity. Qed.
Lemma zig_fresh : exists t' a al, ts_y ceps cgold cgold2 fitted gg 50 50 (p_crv s_zig) own1 ts_new (Fin (QcofZ 12)) = (t', Ok (Some (a :: al))) /\
  length (r_pts (ts_tr t')) = 13%nat /\ length al = 2%nat.
Proof. apply shown_gen. exact z1_counts. Qed.
Lemma zig_before : exists t', ts_y ceps cgold cgold2 fitted gg 50 50 (p_crv s_zig) own1 (fst z1) (Fin (QcofZ (-1))) = (t', Ok None).
Proof. apply none_gen. vm_compute. reflexivity. Qed.
Lemma zig_side : exists t' a al, ts_side ceps cgold cgold2 fitted gg true 50 50 (p_crv s_zig) own1 ts_new (Some (Fin (QcofZ 12))) = (t', Ok (a :: al)) /\
  length (r_pts (ts_tr t')) = 13%nat.
Proof. apply side_shown. vm_compute. reflexivity. Qed.
Lemma zig_scans : okb (TrendScanFacts.scan_all ceps cgold cgold2 fitted gg 50 (zs zig)) = true.
Proof. vm_compute. reflexivity. Qed.
Lemma zig_least p : In p (zs zig) -> (QcofZ (-1) < fst p)%Qc.
Proof.
  intros Ip. assert (F : forallb (fun p : Qc * option Qc => Qcltb (QcofZ (-1)) (fst p)) (zs zig) = true) by (vm_compute; reflexivity).
  rewrite forallb_forall in F. specialize (F p Ip). now apply Qcltb_true in F.
Qed.
Lemma zig_most p : In p (zs zig) -> (fst p <= QcofZ 12)%Qc.
Proof.
  intros Ip. assert (F : forallb (fun p : Qc * option Qc => Qcleb (fst p) (QcofZ 12)) (zs zig) = true) by (vm_compute; reflexivity).
  rewrite forallb_forall in F. specialize (F p Ip). now apply Qcleb_true in F.
Qed.
Lemma zig_some : exists p, In p (zs zig) /\ (fst p <= QcofZ 12)%Qc.
Proof. exists (QcofZ 0, Some (QcofZ 10)). split; [left; reflexivity|apply Qcleb_true; vm_compute; reflexivity]. Qed.
Lemma run_gen (l : list spt) : okb (TrendScanFacts.scan_all ceps cgold cgold2 fitted gg 50 l) = true ->
  exists r, trun ceps cgold cgold2 fitted gg 50 trend0 (map (fun p : spt => TScan (Fin (fst p)) (option_map Fin (snd p))) l) = Ok r.
Proof. intros H. destruct (TrendScanFacts.scan_all ceps cgold cgold2 fitted gg 50 l) as [r|] eqn:E; [|discriminate H]. exists r. exact E. Qed.
Lemma zig_run : exists r, trun ceps cgold cgold2 fitted gg 50 trend0 (map (fun p : spt => TScan (Fin (fst p)) (option_map Fin (snd p))) (zs zig)) = Ok r.
Proof. exact (run_gen (zs zig) zig_scans). Qed.
Lemma more_eq : p_append_list s_zig [(fz 13, nv 5)] = (st more, evs_of more, Ok tt).
Proof. apply pair3. exact more_ok. Qed.
Lemma more_evs : length (evs_of more) = 2%nat.
Proof. apply Nat.eqb_eq. vm_compute. reflexivity. Qed.

Lemma lines_sides {T} {N : Num T} eps gold gold2 polyfit (g : cfg T) f1 f2 lf (c : crv T (option T)) own t t1 t2 a b :
  ts_side eps gold gold2 polyfit g false f1 lf c own t None = (t1, Ok a) -> ts_side eps gold gold2 polyfit g true f2 lf c own t None = (t2, Ok b) ->
  ts_lines g t = a ++ b.
Proof. unfold ts_side, ts_lines. intros A B. injection A as _ <-. injection B as _ <-. reflexivity. Qed.
Lemma z1_lines : (length (scanned_lower gg (ts_tr (fst z1)) None), length (ts_lines gg (fst z1))) = (2%nat, 3%nat).
Proof. vm_compute. reflexivity. Qed.
