(** Concrete extremas, and runs that break what one would expect. *)
From Coq Require Import List ZArith QArith Qcanon Bool Lia Sorting.Sorted.
From Verif Require Import Base Num NumFacts Interval IntervalFacts Curve Points PointsSpec PointsQuery PointsOps PointsDec PointsHist PointsRefute PointsTop PointsEx.
From Verif Require Import BaseEx Combine CombineEx Scan ScanFacts ScanInv ScanTf ScanEx TrendEx Extremas ExtremasFold ExtremasUniq ExtremasVal ExtremasInv.
Import ListNotations.

Definition zs (l : list (Z * Z)) : list spt := map (fun p => (QcofZ (fst p), Some (QcofZ (snd p)))) l.
Definition ten : Qc -> option Qc := fun _ => Some (QcofZ 10).
Definition tenth : Qc := (QcofZ 1 / QcofZ 10)%Qc.
Lemma tenth_nn : (0 <= tenth)%Qc.
Proof. discriminate. Qed.
Lemma ten_nonzero l : Forall (ref_nonzero ten) l.
Proof. apply Forall_forall. intros p _ _. discriminate. Qed.

Lemma fqp_inj l : forall m, map fqp l = map fqp m -> l = m.
Proof.
  induction l as [|[a b] l IH]; intros [|[c d] m] E; try discriminate; auto. cbn in E. injection E as -> -> E. f_equal. auto.
Qed.

(** Above at 0 1 2, below at 3 and 5 (4 is too close to the reference), above at 6. *)
Definition seven : list (Z * Z) := [(0,12);(1,15);(2,14);(3,8);(4,11);(5,7);(6,13)]%Z.
Definition fed (e : exs xq * res unit) (exts : list (Z * Z)) (p : Z * Z) : bool :=
  match e with
  | (e, Ok _) => peqb (x_ext e) (zp exts) && match x_poss e with Some q => peqb [q] (zp [p]) | None => false end
  | _ => false
  end.
Lemma fed_extremas dev R l exts p : (0 <= dev)%Qc -> Forall (ref_nonzero R) l ->
  fed (ExtremasFold.feed dev R ex_init l) exts p = true ->
  extremas_of dev R l (zd exts) (Some (QcofZ (fst p), QcofZ (snd p))).
Proof.
  intros D NZ F. destruct (feed_spec dev R l D NZ) as (e & es & po & E & XE & XP & X). rewrite E in F. unfold fed in F.
  apply andb_prop in F. destruct F as [F1 F2]. apply peqb_eq in F1. rewrite XE in F1. rewrite XP in F2. destruct po as [po|]; [|discriminate]. cbn [option_map] in F2.
  apply peqb_eq in F2. replace (zd exts) with es.
  - destruct po as [a b]. unfold fqp, zp, fz in F2. cbn [map fst snd] in F2. injection F2 as -> ->. exact X.
  - apply fqp_inj. rewrite F1. unfold zp, zd, fqp, fz. rewrite List.map_map. reflexivity.
Qed.
Lemma seven_extremas : extremas_of tenth ten (zs seven) (zd [(1,15);(5,7)]%Z) (Some (QcofZ 6, QcofZ 13)).
Proof. apply (fed_extremas _ _ _ _ (6, 13)%Z tenth_nn (ten_nonzero _)). vm_compute. reflexivity. Qed.

Definition pz (l : list (Z * Z)) : list (xq * option xq) := map (fun p => (fz (fst p), nv (snd p))) l.
Definition mk (l : list (Z * Z)) : npts := st (p_init (pz l) ILinear true).
Definition src7 : npts := mk seven.
Lemma mk_good l x h : ascb (pz l) = true -> (Qcltb 0 h = true /\ eqsb_from x h (pz l) = true) ->
  snd (p_init (pz l) ILinear true) = Ok tt -> good (mk l).
Proof.
  intros A [H E] K. apply honest_history_good, uniform_honest.
  apply uh_init with (l := pz l) (ip := ILinear) (evs := evs_of (p_init (pz l) ILinear true)).
  - now apply ascb_sound.
  - now apply (eqsb_sound _ x h).
  - apply pair3. exact K.
Qed.
Lemma pz_zs l : pz l = map fsp (zs l).
Proof. unfold pz, zs, fsp. rewrite List.map_map. reflexivity. Qed.
Lemma src7_ok : ex_source min_step ten src7 (zs seven).
Proof.
  constructor.
  - apply (mk_good seven 0 1); [vm_compute; reflexivity|split; [reflexivity|vm_compute; reflexivity]|vm_compute; reflexivity].
  - rewrite <- pz_zs. vm_compute. reflexivity.
  - apply coarseb_sound. vm_compute. reflexivity.
  - apply ten_nonzero.
Qed.

(** ** Runs *)
Definition own1 : option xq := Some (Fin min_step).
Definition ask (s : npts) (e : exs xq) (x : Z) : exs xq := fst (ex_y 50 (p_crv s) own1 (Fin tenth) (ref_fun ten) e (fz x)).
Definition told (e : exs xq) (evs : list (ev xq)) : exs xq := fst (fst (ex_events (ref_fun ten) e evs)).

(** Scanned, extended by a point and scanned again: the extrema at 1 is there twice. *)
Definition s3 : npts := mk [(0,12);(1,8);(2,12)]%Z.
Definition s4 := p_append s3 (fz 3, nv 8).
Definition twice : exs xq := ask (st s4) (told (ask s3 ex_init 1) (evs_of s4)) 3.
Lemma twice_ex : snd s4 = Ok tt /\ peqb (x_ext (ask s3 ex_init 1)) (zp [(0,12);(1,8)]%Z) = true /\
  peqb (x_ext twice) (zp [(0,12);(1,8);(1,8);(2,12)]%Z) = true.
Proof. vm_compute. auto. Qed.
Theorem append_repeats : exists s q v s' evs e e' e'' x, good s /\ p_append s (Fin q, v) = (s', evs, Ok tt) /\
  e = fst (ex_y 50 (p_crv s) own1 (Fin tenth) (ref_fun ten) ex_init (fz 1)) /\ e' = fst (fst (ex_events (ref_fun ten) e evs)) /\
  e'' = fst (ex_y 50 (p_crv s') own1 (Fin tenth) (ref_fun ten) e' x) /\
  exists l p, x_ext e'' = l ++ [p; p; (fz 2, fz 12)].
Proof.
  exists s3, (QcofZ 3), (nv 8), (st s4), (evs_of s4). do 3 eexists. exists (fz 3). split.
  - apply (mk_good _ 0 1); [vm_compute; reflexivity|split; [reflexivity|vm_compute; reflexivity]|vm_compute; reflexivity].
  - split; [apply pair3; vm_compute; reflexivity|]. split; [reflexivity|]. split; [reflexivity|]. split; [reflexivity|].
    exists [(fz 0, fz 12)], (fz 1, fz 8). apply peqb_eq. vm_compute. reflexivity.
Qed.

(** Scanned before anything is confirmed, then replaced: the extrema at 0 was never
    a point of the new source. *)
Definition t2 : npts := mk [(0,20);(1,11)]%Z.
Definition t3 := p_set t2 (pz [(0,12);(1,8);(2,12)]%Z) None.
Definition ghost : exs xq := ask (st t3) (told (ask t2 ex_init 1) (evs_of t3)) 2.
Theorem set_leaves_ghost : exists s l s' evs e e' e'' x p, good s /\ p_set s l None = (s', evs, Ok tt) /\ p_pts s' = l /\
  e = fst (ex_y 50 (p_crv s) own1 (Fin tenth) (ref_fun ten) ex_init (fz 1)) /\ e' = fst (fst (ex_events (ref_fun ten) e evs)) /\
  e'' = fst (ex_y 50 (p_crv s') own1 (Fin tenth) (ref_fun ten) e' x) /\
  head_opt (x_ext e'') = Some p /\ ~ In (fst p, Some (snd p)) l.
Proof.
  exists t2, (pz [(0,12);(1,8);(2,12)]%Z), (st t3), (evs_of t3). do 3 eexists. exists (fz 2), (fz 0, fz 20). split.
  - apply (mk_good _ 0 1); [vm_compute; reflexivity|split; [reflexivity|vm_compute; reflexivity]|vm_compute; reflexivity].
  - split; [apply pair3; vm_compute; reflexivity|]. split; [apply ptsb_eq; vm_compute; reflexivity|].
    split; [reflexivity|]. split; [reflexivity|]. split; [reflexivity|]. split.
    + change (head_opt (x_ext ghost) = Some (fz 0, fz 20)). 
      assert (G : x_ext ghost = (fz 0, fz 20) :: tl (x_ext ghost)) by (apply peqb_eq; vm_compute; reflexivity). rewrite G. reflexivity.
    + intros I. cbn in I. repeat destruct I as [I|I]; try contradiction; discriminate.
Qed.

(** _i between the extremas at 1 and 5 of [seven]: 5/4, where the position is 1/4. *)
Definition idx7 : res (option xq) := ex_index (ask src7 ex_init 6) (fz 2).
Lemma idx7_ex : match idx7 with Ok (Some v) => xq_eqb v (fr 5 4) | _ => false end = true.
Proof. vm_compute. reflexivity. Qed.

(** The hypotheses of the theorems about updates on [seven]. *)
Lemma seven_sorted : StronglySorted slt (zs seven).
Proof. exact (source_sorted _ _ _ _ src7_ok). Qed.
Definition four : list (Z * Z) := firstn 4 seven.
Lemma four_extremas : extremas_of tenth ten (zs four) (zd [(1,15)]%Z) (Some (QcofZ 3, QcofZ 8)).
Proof. apply (fed_extremas _ _ _ _ (3, 8)%Z tenth_nn (ten_nonzero _)). vm_compute. reflexivity. Qed.
Lemma restart_ex : exists e k es po, ex_inv tenth ten src7 (zs seven) e k /\ holds ten e es po /\ extremas_of tenth ten (firstn k (zs seven)) es po /\
  x_ext e = zp [(1,15);(5,7)]%Z /\ es <> [] /\
  (forall p, In p es -> i_contains (update_interval (i_closed (fz 0) (fz 1))) (Fin (fst p)) = true).
Proof.
  destruct (ex_queries min_step eq_refl tenth tenth_nn ten src7 (zs seven) 50 [QcofZ 6] _ _ src7_ok ltac:(vm_compute; lia) seven_extremas)
    as (e & vs & k & E & _ & I).
  destruct (ei_ext _ _ _ _ _ _ I) as (es & po & H & X). exists e, k, es, po. split; [exact I|]. split; [exact H|]. split; [exact X|].
  assert (EE : e = ask src7 ex_init 6).
  { cbn [queries] in E. unfold ask. change (fz 6) with (Fin (QcofZ 6)). unfold own1.
    destruct (ex_y 50 (p_crv src7) (Some (Fin min_step)) (Fin tenth) (ref_fun ten) ex_init (Fin (QcofZ 6))) as [e1 v1]. injection E as -> _. reflexivity. }
  assert (XE : x_ext e = zp [(1,15);(5,7)]%Z) by (rewrite EE; apply peqb_eq; vm_compute; reflexivity).
  split; [exact XE|]. rewrite (hd_ext _ _ _ _ H) in XE.
  assert (ES : es = zd [(1,15);(5,7)]%Z) by (apply fqp_inj; rewrite XE; unfold zp, zd, fqp, fz; rewrite List.map_map; reflexivity).
  subst es. split; [discriminate|]. intros p [<-|[<-|[]]]; reflexivity.
Qed.
Definition b34 := ex_begin (ref_fun ten) (ask src7 ex_init 6) (mkI (fz 6) n_inf true true).
Lemma kept_ex : snd b34 = Ok tt /\ last_opt (x_ext (fst (fst b34))) = Some (fz 5, fz 7) /\ x_phase (fst (fst b34)) = Some (fz (-3)).
Proof. vm_compute. auto. Qed.

Definition b02 := ex_begin (ref_fun ten) (ask src7 ex_init 6) (i_closed (fz 0) (fz 2)).
Lemma pruned_ex : x_ext (ask src7 ex_init 6) = map fqp (zd [(1,15);(5,7)]%Z) /\ StronglySorted xlt (zd [(1,15);(5,7)]%Z) /\
  x_int (ask src7 ex_init 6) = ext_interval (x_ext (ask src7 ex_init 6)) /\
  peqb (x_ext (fst (fst b02))) (zp [(5,7)]%Z) = true /\ x_cur (fst (fst b02)) = Some (fz 5) /\ snd b02 = Ok tt.
Proof.
  split; [vm_compute; reflexivity|]. split.
  - cbn [map zd]. constructor; [constructor; constructor|]. constructor; [unfold xlt; apply Qcltb_true; vm_compute; reflexivity|constructor].
  - split; [vm_compute; reflexivity|]. vm_compute. auto.
Qed.
