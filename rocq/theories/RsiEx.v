(** Concrete relative strength indices. *)
From Coq Require Import List ZArith QArith Qcanon Bool Lia.
From Verif Require Import Base Num NumFacts Interval IntervalFacts Curve Points PointsSpec PointsQuery PointsOps PointsDec PointsHist PointsRefute PointsTop PointsEx.
From Verif Require Import BaseEx Combine CombineEx Scan ScanFacts ScanSource ScanInv ScanTf SmaFacts SmaInv ScanTop ScanEx Quotes Rsi RsiFacts.
Import ListNotations.

(** xs 0 1 2 with values 0 1 0, then 3 appended with 2 *)
Definition l_r := [(fz 0, nv 0); (fz 1, nv 1); (fz 2, nv 0)].
Definition r_d0 := zd [(0, 0); (1, 1); (2, 0)]%Z.
Definition r_d1 := zd [(0, 0); (1, 1); (2, 0); (3, 2)]%Z.
Definition r_s0 : npts := st (p_init l_r ILinear true).
Definition r_s1 : npts := st (p_append r_s0 (fz 3, nv 2)).
Definition r_evs := evs_of (p_append r_s0 (fz 3, nv 2)).
Lemma r_s0_hist : uniform_history r_s0.
Proof.
  apply uh_init with (l := l_r) (ip := ILinear) (evs := evs_of (p_init l_r ILinear true)).
  - apply ascb_sound; vm_compute; reflexivity.
  - apply (eqsb_sound _ (QcofZ 0) (QcofZ 1)); vm_compute; reflexivity.
  - reflexivity.
Qed.
Lemma r_s0_even : evenly min_step r_s0 r_d0.
Proof. apply (evenb_sound _ 0 1). vm_compute. reflexivity. Qed.
Lemma r_s1_even : evenly min_step r_s1 r_d1.
Proof. apply (evenb_sound _ 0 1). vm_compute. reflexivity. Qed.
Lemma r_op : run_op r_s0 (OAppend (QcofZ 3) (nv 2)) = (r_s1, r_evs, Ok tt).
Proof. unfold run_op, r_s1, st, r_evs, evs_of, fz. apply pair3. vm_compute. reflexivity. Qed.
Lemma r_s1_hist : honest_history r_s1.
Proof.
  apply (hh_op r_s0 (OAppend (QcofZ 3) (nv 2)) r_s1 r_evs); [exact (uniform_honest _ r_s0_hist)|exact I|exact r_op|].
  intros _. destruct r_s1_even as (-> & E & _). exact E.
Qed.

Definition blank (u : bool) : rsi xq :=
  let a := match n_div (n_one : xq) (fz 2) with Ok a => a | Err _ => n_zero end in
  mkRsi a upd_init upd_init upd_init upd_init (acc_init ILinear u) (acc_init ILinear u).
Lemma blank_init u : rsi_init (fz 2) u = Ok (blank u).
Proof. reflexivity. Qed.
Definition rsi_at s st x := rsi_y (Fin (QcofZ 100)) 9 (p_crv s) st x.

(** asked at 2 and at 1 before the append *)
Definition r_seen : rsi xq := fst (rsi_events (fst (rsi_at r_s0 (fst (rsi_at r_s0 (blank true) (fz 2))) (fz 1))) r_evs).
Lemma ask_rated s st d k x : rated (QcofZ 2) s st -> evenly min_step s d -> (length d < 9)%nat -> (k < length d)%nat -> x = Fin (at_x d k) ->
  rated (QcofZ 2) s (fst (rsi_at s st x)).
Proof.
  intros H EV L Lk E. unfold rsi_at. destruct (rsi_y (Fin (QcofZ 100)) 9 (p_crv s) st x) as [st' r] eqn:Q. cbn [fst].
  eapply ra_query; [exact H|exact EV|exact L| |exact Q]. left. exists k. auto.
Qed.
Lemma change_rated st : rated (QcofZ 2) r_s0 st -> rated (QcofZ 2) r_s1 (fst (rsi_events st r_evs)).
Proof.
  intros H. destruct (rsi_events st r_evs) as [st' r] eqn:E. cbn [fst].
  eapply ra_op with (o := OAppend (QcofZ 3) (nv 2)) (d' := r_d1); [exact H|exact I|exact r_op| |exact (proj1 r_s1_even)|exact E].
  intros _. destruct r_s1_even as (-> & X & _). exact X.
Qed.
Lemma r_rated : rated (QcofZ 2) r_s1 r_seen.
Proof.
  unfold r_seen. apply change_rated. apply ask_rated with (d := r_d0) (k := 1%nat); [|exact r_s0_even|vm_compute; lia|vm_compute; lia|reflexivity].
  apply ask_rated with (d := r_d0) (k := 2%nat); [|exact r_s0_even|vm_compute; lia|vm_compute; lia|reflexivity].
  eapply ra_new; [exact (uniform_honest _ r_s0_hist)|exact (proj1 r_s0_even)|apply blank_init].
Qed.
Lemma r_values : (is_v (snd (rsi_at r_s1 r_seen (fz 0))) (nv 100) && is_v (snd (rsi_at r_s1 r_seen (fz 1))) (nv 100) &&
  is_v (snd (rsi_at r_s1 r_seen (fz 2))) (Some (fr 100 3)) && is_v (snd (rsi_at r_s1 r_seen (fz 3))) (Some (fr 900 11)) &&
  is_v (snd (rsi_at r_s1 r_seen (fz 4))) None = true)%bool.
Proof. vm_compute. reflexivity. Qed.

(** between two points the accumulated points refuse the extra point *)
Lemma rsi_between : exists s d st q, evenly min_step s d /\ honest_history s /\ rsi_init (fz 2) true = Ok st /\
  at_x d 1 < q /\ q < at_x d 2 /\ i_contains (p_dom s) (Fin q) = true /\
  snd (rsi_y (Fin (QcofZ 100)) 9 (p_crv s) st (Fin q)) = Err EExc.
Proof.
  exists r_s1, r_d1, (blank true), (QcofZ 3 / QcofZ 2)%Qc. split; [exact r_s1_even|]. split; [exact r_s1_hist|]. split; [apply blank_init|].
  repeat split; vm_compute; reflexivity.
Qed.
(** a query between the first two points is answered, and from then on the
    index at later points is lost *)
Lemma rsi_spoilt : exists s d st q v w, evenly min_step s d /\ honest_history s /\ rsi_init (fz 2) true = Ok st /\
  at_x d 0 < q /\ q < at_x d 1 /\
  snd (rsi_y (Fin (QcofZ 100)) 9 (p_crv s) st (Fin q)) = Ok (Some (Fin v)) /\
  snd (rsi_y (Fin (QcofZ 100)) 9 (p_crv s) st (Fin (at_x d 2))) = Ok (Some (Fin w)) /\
  snd (rsi_y (Fin (QcofZ 100)) 9 (p_crv s) (fst (rsi_y (Fin (QcofZ 100)) 9 (p_crv s) st (Fin q))) (Fin (at_x d 2))) = Err EExc.
Proof.
  exists r_s1, r_d1, (blank true), (QcofZ 1 / QcofZ 2)%Qc, (QcofZ 100), (QcofZ 100 / QcofZ 3)%Qc.
  split; [exact r_s1_even|]. split; [exact r_s1_hist|]. split; [apply blank_init|].
  split; [vm_compute; reflexivity|]. split; [vm_compute; reflexivity|]. split; [val|]. split; [val|]. vm_compute. reflexivity.
Qed.
(** with uniform=False such a query changes later answers silently *)
Lemma rsi_shifted : exists s d st q v w, evenly min_step s d /\ honest_history s /\ rsi_init (fz 2) false = Ok st /\
  at_x d 1 < q /\ q < at_x d 2 /\
  snd (rsi_y (Fin (QcofZ 100)) 9 (p_crv s) st (Fin (at_x d 3))) = Ok (Some (Fin v)) /\
  snd (rsi_y (Fin (QcofZ 100)) 9 (p_crv s) (fst (rsi_y (Fin (QcofZ 100)) 9 (p_crv s) st (Fin q))) (Fin (at_x d 3))) = Ok (Some (Fin w)) /\ v <> w.
Proof.
  exists r_s1, r_d1, (blank false), (QcofZ 3 / QcofZ 2)%Qc, (QcofZ 900 / QcofZ 11)%Qc, (QcofZ 1700 / QcofZ 23)%Qc.
  split; [exact r_s1_even|]. split; [exact r_s1_hist|]. split; [apply blank_init|].
  split; [vm_compute; reflexivity|]. split; [vm_compute; reflexivity|]. split; [val|]. split; [val|].
  apply Qceqb_false. vm_compute. reflexivity.
Qed.

(** a source that only falls *)
Definition l_f := [(fz 0, nv 5); (fz 1, nv 3); (fz 2, nv 2)].
Definition f_d := zd [(0, 5); (1, 3); (2, 2)]%Z.
Definition f_s : npts := st (p_init l_f ILinear true).
Lemma f_hist : uniform_history f_s.
Proof.
  apply uh_init with (l := l_f) (ip := ILinear) (evs := evs_of (p_init l_f ILinear true)).
  - apply ascb_sound; vm_compute; reflexivity.
  - apply (eqsb_sound _ (QcofZ 0) (QcofZ 1)); vm_compute; reflexivity.
  - reflexivity.
Qed.
Lemma f_even : evenly min_step f_s f_d.
Proof. apply (evenb_sound _ 0 1). vm_compute. reflexivity. Qed.
Lemma f_rated : rated (QcofZ 2) f_s (blank true).
Proof. eapply ra_new; [exact (uniform_honest _ f_hist)|exact (proj1 f_even)|apply blank_init]. Qed.
Lemma f_values : (is_v (snd (rsi_at f_s (blank true) (fz 0))) (nv 100) && is_v (snd (rsi_at f_s (blank true) (fz 2))) (nv 0) = true)%bool.
Proof. vm_compute. reflexivity. Qed.
