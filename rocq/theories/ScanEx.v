(** Concrete accumulating curves. *)
From Coq Require Import List ZArith QArith Qcanon Bool Lia.
From Verif Require Import Base Num NumFacts Interval IntervalFacts Curve Points PointsSpec PointsQuery PointsOps PointsDec PointsHist PointsRefute PointsTop PointsEx.
From Verif Require Import BaseEx Combine CombineEx Scan ScanFacts ScanSource ScanInv ScanTf SmaFacts SmaInv ScanTop.
Import ListNotations.

Definition hf : Qc := (QcofZ 1 / QcofZ 2)%Qc.
Lemma hf_ok : (hf + hf = 1)%Qc.
Proof. apply Qc_is_canon. vm_compute. reflexivity. Qed.
Lemma ms_pos : (0 < min_step)%Qc.
Proof. reflexivity. Qed.
Lemma ms_ms : (min_step <= min_step)%Qc.
Proof. apply Qcle_refl. Qed.

(** *** deciding the hypotheses *)
Definition zd (l : list (Z * Z)) : list (Qc * Qc) := map (fun p => (QcofZ (fst p), QcofZ (snd p))) l.
Fixpoint coarseb (m : Qc) (l : list (xq * num)) : bool :=
  match l with
  | (Fin a, _) :: (((Fin b, _) :: _) as l') => Qcleb m (b - a)%Qc && coarseb m l'
  | [] | [_] => true
  | _ => false
  end.
Lemma coarseb_sound m l : coarseb m l = true -> coarse m l.
Proof.
  induction l as [|[x v] l IH]; intros H i a b va vb A B; [destruct i; discriminate|].
  destruct l as [|[y w] l]; [destruct i as [|[|]]; discriminate|].
  destruct x as [x| | |]; try discriminate. destruct y as [y| | |]; try discriminate.
  cbn [coarseb] in H. apply andb_prop in H as [H1 H2]. destruct i as [|i]; cbn in A, B.
  - injection A as <- <-. injection B as <- <-. now apply Qcleb_true.
  - eapply (IH H2 i); eauto.
Qed.
Definition evenb (m x h : Qc) (s : pts xq num) (d : list (Qc * Qc)) : bool :=
  ptsb (p_pts s) (dots d) && Qcltb 0 h && eqsb_from x h (dots d) && coarseb m (dots d).
Lemma evenb_sound m x h s d : evenb m x h s d = true -> evenly m s d.
Proof.
  unfold evenb. rewrite !andb_true_iff. intros [[[A B] C] D]. split; [now apply ptsb_eq|].
  split; [now apply eqsb_sound with x h|now apply coarseb_sound].
Qed.

(** the source: xs 0..3 with values 0 1 2 9, the last appended *)
Definition ex_d0 := zd [(0, 0); (1, 1); (2, 2)]%Z.
Definition ex_d := zd [(0, 0); (1, 1); (2, 2); (3, 9)]%Z.
Lemma ex_u0_even : evenly min_step ex_u0 ex_d0.
Proof. apply (evenb_sound _ 0 1). vm_compute. reflexivity. Qed.
Lemma ex_u_even : evenly min_step ex_u ex_d.
Proof. apply (evenb_sound _ 0 1). vm_compute. reflexivity. Qed.

(** *** a scan asked at 3/2 and at 1/2 before the append *)
Definition evs3 := evs_of (p_append ex_u0 (fz 3, nv 9)).
Lemma op_u : run_op ex_u0 (OAppend (QcofZ 3) (nv 9)) = (ex_u, evs3, Ok tt).
Proof. unfold run_op, ex_u, st, evs3, evs_of, fz. apply pair3. vm_compute. reflexivity. Qed.
Lemma pair2 {A B} (o : A * B) : o = (fst o, snd o).
Proof. now destruct o. Qed.
Lemma pair31 {A B C} (o : A * B * C) : o = (fst (fst o), snd (fst o), snd o).
Proof. now destruct o as [[? ?] ?]. Qed.
Lemma ex_u_eq : p_uniform ex_u = true -> equally_spaced (p_pts ex_u).
Proof. intros _. destruct ex_u_even as (-> & E & _). exact E. Qed.
Lemma ex_u0_good : good ex_u0.
Proof. exact (honest_history_good _ (uniform_honest _ ex_u0_hist)). Qed.
Lemma ex_u0_len : (length (p_pts ex_u0) < 9)%nat.
Proof. destruct ex_u0_even as (D & _). rewrite D. vm_compute. lia. Qed.

Section Seen.
Context (P : list (xq * num) -> Prop) (tf : pts xq num -> pts xq num -> xq -> num -> num -> res num) (post : num -> num).
Notation ask a x := (fst (acc_y 9 (p_crv ex_u0) (Some (Fin min_step)) (tf ex_u0) post a x)).
Definition seen : acc xq num := fst (fst (acc_events (ask (ask (acc_init ILinear true) (fr 3 2)) (fr 1 2)) evs3)).
Lemma ask_watched a x : P (dots ex_d0) -> watched P min_step ILinear tf post ex_u0 a -> watched P min_step ILinear tf post ex_u0 (ask a x).
Proof.
  intros PD H. destruct ex_u0_even as (D & EQ & CO). eapply wa_query; [exact H| |exact ex_u0_len|apply pair2].
  unfold src. rewrite D. split; [exact ex_u0_good|auto].
Qed.
Lemma append_watched a : watched P min_step ILinear tf post ex_u0 a -> watched P min_step ILinear tf post ex_u (fst (fst (acc_events a evs3))).
Proof. intros H. eapply wa_op; [exact H| |exact op_u|exact ex_u_eq|apply pair31]. exact Logic.I. Qed.
Lemma seen_watched : P (dots ex_d0) -> watched P min_step ILinear tf post ex_u seen.
Proof. intros PD. apply append_watched, ask_watched, ask_watched; auto. apply wa_new. exact (uniform_honest _ ex_u0_hist). Qed.
End Seen.

Definition c5 : Qc := QcofZ 5.
Definition a_int := seen (fun s => integral_scan (Fin hf) IPrevious (p_y s)) (integral_post (Fin c5)).
Lemma ex_int : integral_of hf IPrevious c5 min_step ex_u a_int.
Proof. apply seen_watched. split; [now exists ex_d0|]. apply ex_u0_even. Qed.
Definition q4 : Qc := (QcofZ 1 / QcofZ 4)%Qc.
Definition al4 : ema_degree xq := EmaAlpha (Fin q4).
Definition a_ema := seen (fun s _ => ema_scan al4 None (fun x => p_x_previous s x (Some (Fin min_step)) None)) (fun v => v).
Lemma ex_ema : ema_of al4 None min_step ex_u a_ema.
Proof. apply seen_watched. now exists ex_d0. Qed.
Definition w2 : map_degree xq := MapDegree 2.
Definition a_max := seen (map_tf w2 (fun _ => py_max) 9 min_step) (fun v => v).
Lemma ex_max : trailing_of w2 (fun _ => py_max) ILinear 9 min_step ex_u a_max.
Proof. apply seen_watched. now exists ex_d0. Qed.
Definition p1 : map_degree xq := MapPeriod (fz 1).
Definition a_min := seen (map_tf p1 (fun _ => py_min) 9 min_step) (fun v => v).
Lemma ex_min : trailing_of p1 (fun _ => py_min) ILinear 9 min_step ex_u a_min.
Proof. apply seen_watched. now exists ex_d0. Qed.

Section SeenSma.
Context (deg : sma_degree xq).
Notation ask a x := (fst (sma_value hf min_step deg 9 ex_u0 a x)).
Definition seen_sma : acc xq num := fst (fst (acc_events (ask (ask (acc_init ILinear true) (fr 5 2)) (fr 3 2)) evs3)).
Lemma ask_averaged a x : averaged hf min_step deg ex_u0 a -> averaged hf min_step deg ex_u0 (ask a x).
Proof.
  intros H. destruct ex_u0_even as (D & EQ & CO). unfold sma_value.
  eapply av_query with (dp := 0%nat) (d := ex_d0); [exact H| | |apply pair2].
  - split; [exact ex_u0_good|auto].
  - pose proof ex_u0_len as L. rewrite D, dots_len in L. exact L.
Qed.
Lemma append_averaged a : averaged hf min_step deg ex_u0 a -> averaged hf min_step deg ex_u (fst (fst (acc_events a evs3))).
Proof. intros H. eapply av_op; [exact H| |exact op_u|exact ex_u_eq|apply pair31]. exact Logic.I. Qed.
Lemma ex_sma : averaged hf min_step deg ex_u seen_sma.
Proof. apply append_averaged, ask_averaged, ask_averaged. apply av_new. exact (uniform_honest _ ex_u0_hist). Qed.
End SeenSma.

(** *** SMA is not the arithmetic mean *)
Definition l003 := [(fz 0, nv 0); (fz 1, nv 0); (fz 2, nv 3)].
Definition ex_s : npts := st (p_init l003 ILinear true).
Definition ex_sd := zd [(0, 0); (1, 0); (2, 3)]%Z.
Lemma ex_s_hist : honest_history ex_s.
Proof.
  apply uniform_honest. apply uh_init with (l := l003) (ip := ILinear) (evs := evs_of (p_init l003 ILinear true)).
  - apply ascb_sound; vm_compute; reflexivity.
  - apply (eqsb_sound _ (QcofZ 0) (QcofZ 1)); vm_compute; reflexivity.
  - unfold ex_s, st, evs_of. apply pair3. vm_compute. reflexivity.
Qed.
Lemma ex_s_even : evenly min_step ex_s ex_sd.
Proof. apply (evenb_sound _ 0 1). vm_compute. reflexivity. Qed.
Lemma sma_not_mean : exists s a d, averaged hf min_step (SmaDegree 3) s a /\ evenly min_step s d /\ length d = 3%nat /\
  snd (sma_value hf min_step (SmaDegree 3) 9 s a (Fin (at_x d 2))) = Ok (Some (fr 3 4)) /\
  (total d 0 3 / QcofZ 3)%Qc = QcofZ 1.
Proof.
  exists ex_s, (acc_init ILinear true), ex_sd. split; [apply av_new, ex_s_hist|]. split; [exact ex_s_even|]. split; [reflexivity|].
  split; [val|]. apply Qceqb_true. vm_compute. reflexivity.
Qed.

(** *** and not linear between neighbouring points *)
Definition l1234 := [(fz 0, nv 1); (fz 1, nv 2); (fz 2, nv 3); (fz 3, nv 4)].
Definition ex_l : npts := st (p_init l1234 ILinear true).
Definition ex_ld := zd [(0, 1); (1, 2); (2, 3); (3, 4)]%Z.
Lemma ex_l_hist : honest_history ex_l.
Proof.
  apply uniform_honest. apply uh_init with (l := l1234) (ip := ILinear) (evs := evs_of (p_init l1234 ILinear true)).
  - apply ascb_sound; vm_compute; reflexivity.
  - apply (eqsb_sound _ (QcofZ 0) (QcofZ 1)); vm_compute; reflexivity.
  - unfold ex_l, st, evs_of. apply pair3. vm_compute. reflexivity.
Qed.
Lemma ex_l_even : evenly min_step ex_l ex_ld.
Proof. apply (evenb_sound _ 0 1). vm_compute. reflexivity. Qed.
Lemma sma_not_linear : exists s a d, averaged hf min_step (SmaDegree 2) s a /\ evenly min_step s d /\
  at_x d 1 = QcofZ 1 /\ at_x d 2 = QcofZ 2 /\
  snd (sma_value hf min_step (SmaDegree 2) 9 s a (fz 1)) = Ok (Some (fr 3 2)) /\
  snd (sma_value hf min_step (SmaDegree 2) 9 s a (fz 2)) = Ok (Some (fr 5 2)) /\
  snd (sma_value hf min_step (SmaDegree 2) 9 s a (fr 5 4)) = Ok (Some (fr 9 4)).
Proof.
  exists ex_l, (acc_init ILinear true), ex_ld. split; [apply av_new, ex_l_hist|]. split; [exact ex_l_even|].
  split; [reflexivity|]. split; [reflexivity|]. split; [val|]. split; val.
Qed.

(** *** a period longer than the data: the value at the last point disappears
    on an append that does not announce it *)
Definition long : sma_degree xq := SmaPeriod (fz 10).
Definition a_long : acc xq num := acc_init ILinear true.
Definition sent_long := acc_events a_long (evs3).
Lemma sma_unannounced : exists s a s' evs a' out, averaged hf min_step long s a /\ evenly min_step s ex_d0 /\ evenly min_step s' ex_d /\
  run_op s (OAppend (QcofZ 3) (nv 9)) = (s', evs, Ok tt) /\ acc_events a evs = (a', out, Ok tt) /\ averaged hf min_step long s' a' /\
  snd (sma_value hf min_step long 9 s a (fz 2)) = Ok (Some (fz 1)) /\
  snd (sma_value hf min_step long 9 s' a' (fz 2)) = Ok None /\
  forall e, In e out -> match e with EvBegin D | EvEnd D => i_contains D (fz 2) = false end.
Proof.
  exists ex_u0, a_long, ex_u, (evs3), (fst (fst sent_long)), (snd (fst sent_long)).
  assert (AV : averaged hf min_step long ex_u0 a_long) by (apply av_new; exact (uniform_honest _ ex_u0_hist)).
  assert (EV : acc_events a_long (evs3) = (fst (fst sent_long), snd (fst sent_long), Ok tt)).
  { unfold sent_long. apply pair3. vm_compute. reflexivity. }
  split; [exact AV|]. split; [exact ex_u0_even|]. split; [exact ex_u_even|]. split; [exact op_u|]. split; [exact EV|].
  split; [eapply av_op with (o := OAppend (QcofZ 3) (nv 9)); [exact AV|exact Logic.I|exact op_u|exact ex_u_eq|exact EV]|].
  split; [val|]. split; [val|].
  assert (B : forallb (fun e => negb (i_contains (match e with EvBegin D | EvEnd D => D end) (fz 2))) (snd (fst sent_long)) = true)
    by (vm_compute; reflexivity).
  intros e J. rewrite forallb_forall in B. specialize (B e J). apply negb_true_iff in B. destruct e; exact B.
Qed.

(** *** x_previous of an accumulating curve depends on what was asked before *)
Definition asked (x : xq) : acc xq num := fst (integral_y hf ILinear 0 min_step 9 ex_u (acc_init ILinear true) x).
Lemma ask_int a x : integral_of hf ILinear 0 min_step ex_u a -> integral_of hf ILinear 0 min_step ex_u (fst (integral_y hf ILinear 0 min_step 9 ex_u a x)).
Proof.
  intros H. destruct ex_u_even as (D & EQ & CO). unfold integral_of, integral_y in *.
  eapply wa_query; [exact H| | |apply pair2].
  - unfold src. rewrite D. split; [apply (honest_history_good _ ex_u_honest)|]. split; [auto|]. split; [auto|]. split; [now exists ex_d|auto].
  - rewrite D, dots_len. apply Nat.ltb_lt. reflexivity.
Qed.
Lemma asked_of x : integral_of hf ILinear 0 min_step ex_u (asked x).
Proof. apply ask_int. apply wa_new. exact ex_u_honest. Qed.
Lemma prev_differs : exists s a a', integral_of hf ILinear 0 min_step s a /\ integral_of hf ILinear 0 min_step s a' /\
  evenly min_step s ex_d /\
  acc_prev (p_crv s) (Some (Fin min_step)) a (fz 3) (Some MIN_STEP) None = Ok (Some (fz 1)) /\
  acc_prev (p_crv s) (Some (Fin min_step)) a' (fz 3) (Some MIN_STEP) None = Ok (Some (fz 2)).
Proof.
  exists ex_u, (asked (fz 1)), (asked (fz 3)). split; [apply asked_of|]. split; [apply asked_of|]. split; [exact ex_u_even|].
  split; apply is_opt_eq; vm_compute; reflexivity.
Qed.

(** *** the integral of a Line takes the queried points as its grid *)
Definition ln : line xq := Combine.mkL (fz 0) (fz 2) (fz 1).
Definition line_int (a : acc xq num) (x : xq) := acc_y 9 (line_curve ln) (Some MIN_STEP) (integral_scan (Fin hf) ILinear (c_y (line_curve ln))) (integral_post (fz 0)) a x.
Fixpoint asks (a : acc xq num) (l : list xq) : acc xq num := match l with [] => a | x :: l' => asks (fst (line_int a x)) l' end.
Definition fresh : acc xq num := acc_init ILinear true.
Lemma line_differs : line_init (Some (fz 2)) (Some (fz 1)) None None None = Ok ln /\
  snd (line_int (asks fresh []) (fz 1)) = Ok (Some (fz 0)) /\
  snd (line_int (asks fresh [fz 0]) (fz 1)) = Ok (Some (fr 5 2)) /\
  snd (line_int (asks fresh [fz 0; fz 2]) (fz 1)) = Ok (Some (fz 3)) /\
  snd (line_int (asks fresh [fz 0; fz 1]) (fz 3)) = Err EExc.
Proof. split; [vm_compute; reflexivity|]. split; [val|]. split; [val|]. split; [val|]. vm_compute. reflexivity. Qed.

Lemma ex_d_within : within (QcofZ 0) (QcofZ 9) ex_d.
Proof. intros p J. repeat destruct J as [<-|J]; try (split; discriminate). destruct J. Qed.
Lemma ex_full : full_from (QcofZ 3 / QcofZ 2) min_step ex_d 1.
Proof.
  intros [|[|[|[|j]]]] L1 L2; try (exfalso; lia); [| |exfalso; cbn in L2; lia]; apply Qcltb_true; vm_compute; reflexivity.
Qed.
Lemma asked_cur : a_cur (asked (fz 1)) = Some (fz 1).
Proof. destruct (a_cur (asked (fz 1))) eqn:E; [|vm_compute in E; discriminate]. f_equal. apply xq_eqb_eq.
  assert (B : match a_cur (asked (fz 1)) with Some x => xq_eqb x (fz 1) | None => false end = true) by (vm_compute; reflexivity).
  now rewrite E in B.
Qed.
