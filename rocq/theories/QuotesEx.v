(** Concrete quotes. *)
From Coq Require Import List ZArith QArith Qcanon Bool Lia.
From Verif Require Import Base Num NumFacts Interval IntervalFacts Curve Points PointsSpec PointsQuery PointsDom PointsOps PointsCover PointsDec PointsHist PointsRefute PointsTop PointsEx.
From Verif Require Import BaseEx Combine CombineEx Scan ScanFacts ScanSource ScanInv ScanTf SmaFacts SmaInv ScanTop ScanView ScanEx TrendEx Quotes QuotesFacts QuotesTop QuotesScan.
Import ListNotations.

(** ** deciding hypotheses *)
Fixpoint candleb (c d : list xq) : bool :=
  match c, d with
  | [], [] => true
  | a :: c, b :: d => xq_eqb a b && candleb c d
  | _, _ => false
  end.
Lemma candleb_eq c : forall d, candleb c d = true -> c = d.
Proof.
  induction c as [|a c IH]; intros [|b d]; try discriminate; auto. cbn. rewrite andb_true_iff. intros [A B].
  now rewrite (xq_eqb_eq _ _ A), (IH _ B).
Qed.
Fixpoint cptsb (l m : list (xq * cnd)) : bool :=
  match l, m with
  | [], [] => true
  | (x, Some v) :: l, (y, Some w) :: m => xq_eqb x y && candleb v w && cptsb l m
  | _, _ => false
  end.
Lemma cptsb_eq l : forall m, cptsb l m = true -> l = m.
Proof.
  induction l as [|[x [v|]] l IH]; intros [|[y [w|]] m]; try discriminate; auto. cbn. rewrite !andb_true_iff. intros [[A B] C].
  now rewrite (xq_eqb_eq _ _ A), (candleb_eq _ _ B), (IH _ C).
Qed.
Fixpoint ccoarseb (m : Qc) (l : list (xq * cnd)) : bool :=
  match l with
  | (Fin a, _) :: (((Fin b, _) :: _) as l') => Qcleb m (b - a)%Qc && ccoarseb m l'
  | [] | [_] => true
  | _ => false
  end.
Lemma ccoarseb_sound m l : ccoarseb m l = true -> coarse m l.
Proof.
  induction l as [|[x v] l IH]; intros H i a b va vb A B; [destruct i; discriminate|].
  destruct l as [|[y w] l]; [destruct i as [|[|]]; discriminate|].
  destruct x as [x| | |]; try discriminate. destruct y as [y| | |]; try discriminate.
  cbn [ccoarseb] in H. apply andb_prop in H as [H1 H2]. destruct i as [|i]; cbn in A, B.
  - injection A as <- <-. injection B as <- <-. now apply Qcleb_true.
  - eapply (IH H2 i); eauto.
Qed.
Fixpoint columnb (k : nat) (l : list (xq * cnd)) (d : list (Qc * Qc)) : bool :=
  match l, d with
  | [], [] => true
  | (x, Some cd) :: l, (a, b) :: d =>
      xq_eqb x (Fin a) && match nth_error cd k with Some y => xq_eqb y (Fin b) | None => false end && columnb k l d
  | _, _ => false
  end.
Lemma columnb_sound k l : forall d, columnb k l d = true -> column k l d.
Proof.
  induction l as [|[x [cd|]] l IH]; intros [|[a b] d] H; try discriminate; [constructor|].
  cbn in H. rewrite !andb_true_iff in H. destruct H as [[A B] C]. constructor; [|now apply IH].
  cbn. split; [now apply xq_eqb_eq|]. exists cd. split; [reflexivity|].
  destruct (nth_error cd k) as [y|]; [|discriminate]. f_equal. now apply xq_eqb_eq.
Qed.

(** ** Three candles one second apart, and a fourth appended *)
Definition cd (l : list Z) : cnd := Some (map fz l).
Definition hundredth : Qc := (QcofZ 1 / QcofZ 100)%Qc.
(** one second: from the start of the interval to a second after its end *)
Definition D1 (u : bool) : duration xq := mkDur u (Fin hundredth) (fun d => mkI (i_start d) (n_add (i_end d) (fz 1)) false true).
Definition bare : xq * cnd -> res (xq * cnd) := fun p => Ok p.
Definition three : list (xq * cnd) := [(fz 0, cd [10; 15; 8; 12]); (fz 1, cd [12; 14; 9; 13]); (fz 2, cd [13; 20; 7; 19])]%Z.
Definition fourth : xq * cnd := (fz 3, cd [19; 19; 5; 6; 100]%Z).
Definition qst (o : quotes xq * list (ev xq) * res unit) : quotes xq := fst (fst o).
Definition qev (o : quotes xq * list (ev xq) * res unit) : list (ev xq) := snd (fst o).
Definition q3 : quotes xq := qst (q_set bare None (q_empty (D1 true)) three).
Definition q4 : quotes xq := qst (q_append bare None q3 fourth).
Lemma q3_candles : candles q3 = three.
Proof. apply cptsb_eq. vm_compute. reflexivity. Qed.
Lemma q4_candles : candles q4 = three ++ [fourth].
Proof. apply cptsb_eq. vm_compute. reflexivity. Qed.
Lemma three_asc : ascending three.
Proof. apply ascb_sound. vm_compute. reflexivity. Qed.
Lemma four_asc : ascending (three ++ [fourth]).
Proof. apply ascb_sound. vm_compute. reflexivity. Qed.
Lemma three_eq : equally_spaced three.
Proof. apply (eqsb_sound _ 0 1); [reflexivity|vm_compute; reflexivity]. Qed.
Lemma four_eq : equally_spaced (three ++ [fourth]).
Proof. apply (eqsb_sound _ 0 1); [reflexivity|vm_compute; reflexivity]. Qed.
Lemma pairq (o : quotes xq * list (ev xq) * res unit) r : snd o = r -> o = (qst o, qev o, r).
Proof. destruct o as [[? ?] ?]. cbn. now intros ->. Qed.
Lemma q3_run : run_q bare None (q_empty (D1 true)) (QSet three) = (q3, qev (q_set bare None (q_empty (D1 true)) three), Ok tt).
Proof. unfold run_q, q3. apply pairq. vm_compute. reflexivity. Qed.
Lemma q4_run : run_q bare None q3 (QAppend fourth) = (q4, qev (q_append bare None q3 fourth), Ok tt).
Proof. unfold run_q, q4. apply pairq. vm_compute. reflexivity. Qed.
Lemma bare_reads l : reads bare None (QSet l) = Ok l.
Proof. exact (rmapM_ok l). Qed.
Lemma bare_read p : reads bare None (QAppend p) = Ok [p].
Proof. reflexivity. Qed.
Lemma q3_quoted : quoted bare None (D1 true) q3.
Proof.
  eapply qh_op with (m := three); [apply qh_new|exact (bare_reads three)|exact three_asc|exact q3_run|].
  intros _. rewrite q3_candles. exact three_eq.
Qed.
Lemma fourth_asc : ascending [fourth].
Proof. apply ascb_sound. vm_compute. reflexivity. Qed.
Lemma q4_quoted : quoted bare None (D1 true) q4.
Proof.
  eapply qh_op with (m := [fourth]); [exact q3_quoted|exact (bare_read fourth)|exact fourth_asc|exact q4_run|].
  intros _. rewrite q4_candles. exact four_eq.
Qed.

(** ** An encoder from rows to points *)
Inductive raw := Row (t o h l c : Z) | Pair (p : xq * cnd).
(** only rows have the fields the encoder asks for *)
Definition row_encoder (r : raw) : res raw :=
  match r with Row t o h l c => Ok (Pair (fz t, cd [o; h; l; c])) | Pair _ => Err EType end.
Definition raw_point (r : raw) : res (xq * cnd) := match r with Pair p => Ok p | Row _ _ _ _ _ => Err EType end.
Definition rows : list raw := [Row 0 10 15 8 12; Row 1 12 14 9 13]%Z.
(** an encoder that leaves points alone *)
Definition kind_encoder (r : raw) : res raw :=
  match r with Row t o h l c => Ok (Pair (fz t, cd [o; h; l; c])) | Pair p => Ok (Pair p) end.
Lemma kind_once r : encodes_once raw_point (Some kind_encoder) r.
Proof. intros o' p E P. destruct r; cbn in E; injection E as <-; eexists; split; reflexivity || exact P. Qed.

(** ** A trailing curve asked before and after the append *)
Definition t_ask k s a x := fst (trailing_y k (MapDegree 2) 0 (D1 true) 9 s a x).
Definition t_seen k : acc xq num :=
  fst (fst (acc_events (t_ask k q3 (t_ask k q3 (trailing_init (D1 true)) (fr 3 2)) (fr 1 2)) (qev (q_append bare None q3 fourth)))).
Definition t_upd : upd xq := fst (forward upd_init (qev (q_append bare None q3 fourth))).
Definition highs := zd [(0, 15); (1, 14); (2, 20); (3, 19)]%Z.
Definition lows := zd [(0, 8); (1, 9); (2, 7); (3, 5)]%Z.
Lemma q3_column k : (k < 4)%nat -> exists d, column k (candles q3) d.
Proof.
  intros L. rewrite q3_candles. destruct k as [|[|[|[|]]]]; try lia.
  - exists (zd [(0, 10); (1, 12); (2, 13)]%Z). apply columnb_sound. vm_compute. reflexivity.
  - exists (zd [(0, 15); (1, 14); (2, 20)]%Z). apply columnb_sound. vm_compute. reflexivity.
  - exists (zd [(0, 8); (1, 9); (2, 7)]%Z). apply columnb_sound. vm_compute. reflexivity.
  - exists (zd [(0, 12); (1, 13); (2, 19)]%Z). apply columnb_sound. vm_compute. reflexivity.
Qed.
Lemma q4_highs : column HIGH (candles q4) highs.
Proof. rewrite q4_candles. apply columnb_sound. vm_compute. reflexivity. Qed.
Lemma q4_lows : column LOW (candles q4) lows.
Proof. rewrite q4_candles. apply columnb_sound. vm_compute. reflexivity. Qed.
Lemma q3_apart : apart (D1 true) (candles q3).
Proof.
  rewrite q3_candles. split; [apply ccoarseb_sound; vm_compute; reflexivity|]. exists hundredth. split; [reflexivity|].
  apply ccoarseb_sound. vm_compute. reflexivity.
Qed.
Lemma q4_apart : apart (D1 true) (candles q4).
Proof.
  rewrite q4_candles. split; [apply ccoarseb_sound; vm_compute; reflexivity|]. exists hundredth. split; [reflexivity|].
  apply ccoarseb_sound. vm_compute. reflexivity.
Qed.
Lemma ask_trailed k u a x : trailed bare None k 2 0 (D1 true) q3 u a -> trailed bare None k 2 0 (D1 true) q3 u (t_ask k q3 a x).
Proof.
  intros H. eapply tl_query with (fuel := 9%nat); [exact H|exact q3_apart| |apply pair2]. rewrite q3_candles. cbn. lia.
Qed.
Lemma seen_trailed k d : (k < 4)%nat -> column k (candles q4) d -> trailed bare None k 2 0 (D1 true) q4 t_upd (t_seen k).
Proof.
  intros L C. destruct (q3_column k L) as [d3 C3]. eapply tl_op with (s := q3) (m := [fourth]).
  - apply ask_trailed, ask_trailed. eapply tl_new; [exact q3_quoted|exact C3].
  - exact (bare_read fourth).
  - exact fourth_asc.
  - exact q4_run.
  - intros _. rewrite q4_candles. exact four_eq.
  - exact C.
  - unfold t_upd. rewrite (pair2 (forward upd_init (qev (q_append bare None q3 fourth)))) at 1. reflexivity.
  - assert (E : snd (forward upd_init (qev (q_append bare None q3 fourth))) = qev (q_append bare None q3 fourth)) by (vm_compute; reflexivity).
    rewrite E. unfold t_seen. apply pair31.
Qed.

(** ** Values *)
Definition is_num (r : res num) (v : num) : bool := match r with Ok w => oxq_eqb w v | Err _ => false end.
Lemma is_num_eq r v : is_num r v = true -> r = Ok v.
Proof. destruct r; try discriminate. cbn. intros H. now rewrite (oxq_eqb_eq _ _ H). Qed.
Definition is_cnd (r : res cnd) (v : candle xq) : bool := match r with Ok (Some w) => candleb w v | _ => false end.
Lemma is_cnd_eq r v : is_cnd r v = true -> r = Ok (Some v).
Proof. destruct r as [[w|]|]; try discriminate. cbn. intros H. now rewrite (candleb_eq _ _ H). Qed.
Ltac num := apply is_num_eq; vm_compute; reflexivity.

(** ** The domain of the quotes ends before the last candle does *)
Lemma after_last_ex : quoted bare None (D1 true) q4 /\ i_contains (quote_domain (D1 true) q4) (fr 7 2) = true /\
  forall k, c_y (component k (D1 true) q4) (fr 7 2) = Ok None.
Proof.
  split; [exact q4_quoted|]. split; [vm_compute; reflexivity|]. intros k.
  eapply after_last with (z := QcofZ 3).
  - exact (quoted_inv _ _ _ _ q4_quoted).
  - rewrite q4_candles. reflexivity.
  - apply Qcltb_true. vm_compute. reflexivity.
Qed.

(** ** An encoder that is used twice *)
Lemma row_refused : (exists s' evs, q_set raw_point (Some row_encoder) (q_empty (D1 true)) rows = (s', evs, Ok tt) /\ length (candles s') = 2%nat) /\
  forall s r, In r rows -> exists s' e, q_append raw_point (Some row_encoder) s r = (s', [], Err e) /\ candles s' = candles s.
Proof.
  split.
  - exists (qst (q_set raw_point (Some row_encoder) (q_empty (D1 true)) rows)), (qev (q_set raw_point (Some row_encoder) (q_empty (D1 true)) rows)).
    split; [apply pairq|]; vm_compute; reflexivity.
  - intros s r _. apply append_never. intros o' E. unfold enc in *. destruct r; cbn in E; [|discriminate].
    injection E as <-. exists EType. reflexivity.
Qed.

(** ** trailing_low takes the greatest low, and a window by period reaches back *)
Lemma low_is_max : quoted bare None (D1 true) q4 /\
  least (in_window (MapDegree 2) lows 1) (QcofZ 8) /\ column LOW (candles q4) lows /\
  snd (trailing_low (MapDegree 2) 0 (D1 true) 9 q4 (trailing_init (D1 true)) (fz 1)) = Ok (nv 9).
Proof.
  split; [exact q4_quoted|]. split; [|split; [exact q4_lows|num]].
  split.
  - exists 0%nat. split; [lia|]. split; [apply Qc_is_canon; vm_compute; reflexivity|lia].
  - intros y (j & L & <- & _). destruct j as [|[|]]; try lia; apply Qcleb_true; vm_compute; reflexivity.
Qed.
Lemma period_reaches_back : quoted bare None (D1 true) q4 /\
  greatest (in_window (MapPeriod (fr 1 2)) highs 1) (QcofZ 14) /\ column HIGH (candles q4) highs /\
  snd (trailing_high (MapPeriod (fr 1 2)) 9 (D1 true) 9 q4 (trailing_init (D1 true)) (fz 1)) = Ok (nv 15).
Proof.
  split; [exact q4_quoted|]. split; [|split; [exact q4_highs|num]].
  split.
  - exists 1%nat. split; [lia|]. split; [apply Qc_is_canon; vm_compute; reflexivity|]. apply Qcleb_true. vm_compute. reflexivity.
  - intros y (j & L & <- & W). cbn in W. destruct j as [|[|]]; try lia.
    + exfalso. apply Qcleb_true in W. vm_compute in W. discriminate.
    + apply Qcleb_true; vm_compute; reflexivity.
Qed.
Lemma range_raises : quoted bare None (D1 true) q4 /\
  Quotes.get_range 9 (D1 true) q4 (Some (i_closed (fz 0) (fz 2))) None None = Err EAttr.
Proof. split; [exact q4_quoted|]. vm_compute. reflexivity. Qed.

Lemma outside_ex : quoted bare None (D1 true) q4 /\ ~ span (candles q4) (QcofZ (-1)) /\
  c_y (component HIGH (D1 true) q4) (fz (-1)) = Ok None /\ c_y (component HIGH (D1 true) q4) PInf = Ok None.
Proof.
  split; [exact q4_quoted|]. split; [|split; num]. intros N.
  apply (quotes_domain (D1 true) q4 (quoted_inv _ _ _ _ q4_quoted)) in N. vm_compute in N. discriminate.
Qed.
Lemma row_twice o' : enc (Some row_encoder) (Row 0 10 15 8 12) = Ok o' -> exists e, enc (Some row_encoder) o' = Err e.
Proof. unfold enc. cbn. intros E. injection E as <-. exists EType. reflexivity. Qed.
Lemma rows_kind : exists m, quoted raw_point (Some kind_encoder) (D1 true) (q_empty (D1 true)) /\
  candles (q_empty (D1 true)) = [] /\ (forall o, In o rows -> encodes_once raw_point (Some kind_encoder) o) /\
  reads raw_point (Some kind_encoder) (QSet rows) = Ok m /\ length m = 2%nat /\ ascending m /\ equally_spaced m.
Proof.
  exists (firstn 2 three). split; [apply qh_new|]. split; [reflexivity|]. split; [intros o _; apply kind_once|].
  split; [reflexivity|]. split; [reflexivity|]. split.
  - apply ascb_sound. vm_compute. reflexivity.
  - apply (eqsb_sound _ 0 1); [reflexivity|vm_compute; reflexivity].
Qed.
Lemma sample_ex : quoted bare None (D1 true) q4 /\ i_is_empty (i_closed (fz 1) (fz 2)) = false /\
  iok (d_span (D1 true) (i_closed (fz 1) (fz 2))) /\ regular (q_pts q4) None None /\
  filter (fun p => i_contains (d_span (D1 true) (i_closed (fz 1) (fz 2))) (fst p)) (candles q4) = firstn 2 (skipn 1 three).
Proof.
  split; [exact q4_quoted|]. split; [reflexivity|]. split; [|split].
  - split; discriminate.
  - intros h _. split; discriminate.
  - rewrite q4_candles. apply cptsb_eq. vm_compute. reflexivity.
Qed.
