(** Histories of extremas on concrete points. *)
From Coq Require Import List ZArith QArith Qcanon Bool Lia Sorting.Sorted.
From Verif Require Import Base Num NumFacts Interval IntervalFacts Curve Points PointsSpec PointsQuery PointsOps PointsDec PointsHist PointsRefute PointsTop PointsEx.
From Verif Require Import BaseEx Combine CombineEx Scan ScanFacts ScanInv ScanTf ScanEx TrendEx Extremas ExtremasFold ExtremasUniq ExtremasVal ExtremasInv ExtremasEx ExtremasLife ExtremasHist.
Import ListNotations.

Definition three : list (Z * Z) := [(0,12);(1,8);(2,12)]%Z.
Lemma s3_ok : ex_source min_step ten s3 (zs three).
Proof.
  constructor.
  - apply (mk_good three 0 1); [vm_compute; reflexivity|split; [reflexivity|vm_compute; reflexivity]|vm_compute; reflexivity].
  - rewrite <- pz_zs. vm_compute. reflexivity.
  - apply coarseb_sound. vm_compute. reflexivity.
  - apply ten_nonzero.
Qed.
Lemma s4_run : p_append_list s3 (map fsp (zs [(3,8)]%Z)) = (st s4, evs_of s4, Ok tt).
Proof. change (p_append_list s3 (map fsp (zs [(3,8)]%Z))) with s4. apply pair3. vm_compute. reflexivity. Qed.
Lemma s4_good : good (st s4).
Proof.
  apply (PointsMut.p_append_good s3 (QcofZ 3) (nv 8) (st s4) (evs_of s4)); [apply s3_ok|vm_compute; reflexivity|].
  change (p_append s3 (Fin (QcofZ 3), nv 8)) with s4. apply pair3. vm_compute. reflexivity.
Qed.
(** Asked, appended to and asked again. *)
Definition e3 : exs xq := ask s3 ex_init 1.
Definition ev4 : exs xq * list (ev xq) * res unit := ex_events (ref_fun ten) e3 (evs_of s4).
Definition e4 : exs xq := ask (st s4) (fst (fst ev4)) 3.
Lemma ask_life s l e x : (length l < 50)%nat -> elife min_step tenth ten s l e -> elife min_step tenth ten s l (ask s e x).
Proof. intros L H. unfold ask. eapply el_y; [exact H|exact L|]. apply surjective_pairing. Qed.
Lemma e4_life : elife min_step tenth ten (st s4) (zs three ++ zs [(3,8)]%Z) e4.
Proof.
  unfold e4. apply ask_life; [vm_compute; lia|].
  eapply el_append with (s := s3) (e := e3) (evs := evs_of s4) (out := snd (fst ev4)) (t := snd ev4).
  - unfold e3. apply ask_life; [vm_compute; lia|]. apply el_new. apply s3_ok.
  - discriminate.
  - rewrite <- pz_zs. apply ascb_sound. vm_compute. reflexivity.
  - exact s4_run.
  - exact s4_good.
  - apply coarseb_sound. vm_compute. reflexivity.
  - apply ten_nonzero.
  - fold ev4. destruct ev4 as [[a b] c]. reflexivity.
Qed.
Lemma four_extremas' : extremas_of tenth ten (zs three ++ zs [(3,8)]%Z) (zd [(0,12);(1,8);(2,12)]%Z) (Some (QcofZ 3, QcofZ 8)).
Proof. apply (fed_extremas _ _ (zs three ++ zs [(3,8)]%Z) _ (3, 8)%Z tenth_nn (ten_nonzero _)). vm_compute. reflexivity. Qed.
Lemma e4_list : peqb (x_ext e4) (zp [(0,12);(1,8);(1,8);(2,12)]%Z) = true.
Proof. vm_compute. reflexivity. Qed.
Definition a4 : res (option xq) := snd (ex_y 50 (p_crv (st s4)) own1 (Fin tenth) (ref_fun ten) e4 (fr 3 2)).
Lemma a4_ok : match a4 with Ok (Some v) => xq_eqb v (fz 10) | _ => false end = true.
Proof. vm_compute. reflexivity. Qed.

(** The last point, which confirmed the extrema at 1, replaced: that extrema stays
    and y answers at it, though none is left. *)
Definition r3 : npts := mk [(0,12);(1,15);(2,8)]%Z.
Definition r3' := p_replace r3 (fz 2, nv 16) false.
Definition re : exs xq := ask (st r3') (told (ask r3 ex_init 1) (evs_of r3')) 2.
Definition ra : res (option xq) := snd (ex_y 50 (p_crv (st r3')) own1 (Fin tenth) (ref_fun ten) (told (ask r3 ex_init 1) (evs_of r3')) (fz 1)).
Lemma r3_extremas : extremas_of tenth ten (zs [(0,12);(1,15);(2,16)]%Z) [] (Some (QcofZ 2, QcofZ 16)).
Proof. apply (fed_extremas _ _ _ [] (2, 16)%Z tenth_nn (ten_nonzero _)). vm_compute. reflexivity. Qed.
Theorem replace_stale : exists s p s' evs e e' l v, good s /\ p_replace s p false = (s', evs, Ok tt) /\ p_pts s' = map fsp l /\
  e = fst (ex_y 50 (p_crv s) own1 (Fin tenth) (ref_fun ten) ex_init (fz 1)) /\ e' = fst (fst (ex_events (ref_fun ten) e evs)) /\
  extremas_of tenth ten l [] (Some v) /\
  x_ext e' = [(fz 1, fz 15)] /\ snd (ex_y 50 (p_crv s') own1 (Fin tenth) (ref_fun ten) e' (fz 1)) = Ok (Some (fz 15)).
Proof.
  exists r3, (fz 2, nv 16), (st r3'), (evs_of r3'). do 2 eexists. exists (zs [(0,12);(1,15);(2,16)]%Z), (QcofZ 2, QcofZ 16). split.
  - apply (mk_good _ 0 1); [vm_compute; reflexivity|split; [reflexivity|vm_compute; reflexivity]|vm_compute; reflexivity].
  - split; [apply pair3; vm_compute; reflexivity|]. split; [rewrite <- pz_zs; apply ptsb_eq; vm_compute; reflexivity|].
    split; [reflexivity|]. split; [reflexivity|]. split; [exact r3_extremas|]. split.
    + apply peqb_eq. vm_compute. reflexivity.
    + change (ra = Ok (Some (fz 15))). assert (G : match ra with Ok (Some v) => xq_eqb v (fz 15) | _ => false end = true) by (vm_compute; reflexivity).
      destruct ra as [[v|]|]; try discriminate G. do 2 f_equal. destruct v as [q| | |]; try discriminate G. cbn in G. apply Qceqb_true in G. now subst.
Qed.

(** The last two points of [seven] replaced. *)
Definition five : list (Z * Z) := firstn 5 seven.
Lemma five_extremas : extremas_of tenth ten (zs five) (zd [(1,15)]%Z) (Some (QcofZ 3, QcofZ 8)).
Proof. apply (fed_extremas _ _ _ _ (3, 8)%Z tenth_nn (ten_nonzero _)). vm_compute. reflexivity. Qed.
Lemma tail_ex : extremas_of tenth ten (zs five) (zd [(1,15)]%Z) (Some (QcofZ 3, QcofZ 8)) /\
  extremas_of tenth ten (zs five ++ zs [(5,7);(6,13)]%Z) (zd [(1,15);(5,7)]%Z) (Some (QcofZ 6, QcofZ 13)) /\
  filter (fun q => outside (update_interval (i_closed (fz 5) (fz 6))) (fst q)) (zd [(1,15);(5,7)]%Z) = zd [(1,15)]%Z /\
  (forall q, In q (zs five) -> outside (update_interval (i_closed (fz 5) (fz 6))) (fst q) = true).
Proof.
  split; [exact five_extremas|]. split; [exact seven_extremas|]. split; [reflexivity|].
  intros q I. cbn in I. repeat destruct I as [<-|I]; try reflexivity. destruct I.
Qed.
Lemma keeps_ex : keeps tenth ten (zs five ++ zs [(5,7);(6,13)]%Z) ten (zs five ++ zs [(5,9);(6,6)]%Z) (update_interval (i_closed (fz 5) (fz 6))).
Proof.
  destruct tail_ex as (A & B & C & D). eapply keeps_tail; [exact tenth_nn|exact seven_sorted|apply ten_nonzero|exact A|discriminate|exact B|exact C|exact D].
Qed.
Lemma e3_life : elife min_step tenth ten s3 (zs three) e3.
Proof. unfold e3. apply ask_life; [vm_compute; lia|]. apply el_new. apply s3_ok. Qed.
Lemma reference_ex : exists R', R' (QcofZ 7) <> ten (QcofZ 7) /\ forall q, In q (zs seven) -> R' (fst q) = ten (fst q).
Proof.
  exists (fun x => if Qcltb x (QcofZ 7) then Some (QcofZ 10) else Some (QcofZ 11)). split; [discriminate|].
  intros q I. cbn in I. repeat destruct I as [<-|I]; try reflexivity. destruct I.
Qed.
