(** Concrete oscillators and alligator lines. *)
From Coq Require Import List ZArith QArith Qcanon Bool Arith Lia.
From Verif Require Import Base Num NumFacts Interval IntervalFacts Curve Points PointsSpec PointsQuery PointsDom PointsOps PointsCover PointsDec PointsHist PointsRefute PointsTop PointsEx.
From Verif Require Import BaseEx Combine CombineEx Scan ScanFacts ScanSource ScanInv ScanTf SmaFacts SmaInv ScanTop ScanView ScanEx TrendEx Quotes QuotesFacts QuotesTop QuotesScan QuotesEx.
From Verif Require Import OffsetDur OffsetDurFacts OffsetDurTop OffsetDurEx Rsi Indicator IndicatorFacts IndicatorTop.
Import ListNotations.

(** ** deciding hypotheses *)
Fixpoint midsb (l : list (xq * cnd)) (d : list (Qc * Qc)) : bool :=
  match l, d with
  | [], [] => true
  | (x, Some cd) :: l, (a, b) :: d =>
      xq_eqb x (Fin a) &&
      match nth_error cd HIGH, nth_error cd LOW with
      | Some (Fin h), Some (Fin w) => xq_eqb (Fin b) (Fin ((h + w) / (1 + 1))%Qc)
      | _, _ => false
      end && midsb l d
  | _, _ => false
  end.
Lemma midsb_sound l : forall d, midsb l d = true -> mids l d.
Proof.
  induction l as [|[x [cd|]] l IH]; intros [|[a b] d] H; try discriminate; [constructor|].
  cbn [midsb] in H. rewrite !andb_true_iff in H. destruct H as [[A B] C]. constructor; [|now apply IH].
  cbn [fst snd]. split; [now apply xq_eqb_eq|]. exists cd. split; [reflexivity|]. unfold midpoint.
  destruct (nth_error cd HIGH) as [[h| | |]|]; try discriminate. destruct (nth_error cd LOW) as [[w| | |]|]; try discriminate.
  exists h, w. split; [reflexivity|]. split; [reflexivity|]. apply xq_eqb_eq in B. now injection B.
Qed.

(** ** 34 candles one second apart, and a 35th; the midpoints are 0 except for
    the last three *)
Definition bar (k : Z) : xq * cnd :=
  (fz k, if (k <? 32)%Z then cd [0; 1; -1; 0]%Z else cd [0; 2 * (k - 30); 2; 0]%Z).
Definition bars : list (xq * cnd) := map (fun k => bar (Z.of_nat k)) (seq 0 34).
Definition next_bar : xq * cnd := bar 34.
Definition b34 : quotes xq := qst (q_set bare None (q_empty (D1 true)) bars).
Definition b35 : quotes xq := qst (q_append bare None b34 next_bar).
Definition mid_list (n : nat) : list (Qc * Qc) :=
  map (fun k => (QcofZ (Z.of_nat k), if (k <? 32)%nat then 0%Qc else QcofZ (Z.of_nat k - 29))) (seq 0 n).
Lemma b34_candles : candles b34 = bars.
Proof. apply cptsb_eq. vm_compute. reflexivity. Qed.
Lemma b35_candles : candles b35 = bars ++ [next_bar].
Proof. apply cptsb_eq. vm_compute. reflexivity. Qed.
Lemma b34_mids : mids (candles b34) (mid_list 34).
Proof. rewrite b34_candles. apply midsb_sound. vm_compute. reflexivity. Qed.
Lemma b35_mids : mids (candles b35) (mid_list 35).
Proof. rewrite b35_candles. apply midsb_sound. vm_compute. reflexivity. Qed.
Lemma b34_run : run_q bare None (q_empty (D1 true)) (QSet bars) = (b34, qev (q_set bare None (q_empty (D1 true)) bars), Ok tt).
Proof. unfold run_q, b34. apply pairq. vm_compute. reflexivity. Qed.
Lemma b35_run : run_q bare None b34 (QAppend next_bar) = (b35, qev (q_append bare None b34 next_bar), Ok tt).
Proof. unfold run_q, b35. apply pairq. vm_compute. reflexivity. Qed.
Lemma b34_eq : equally_spaced bars.
Proof. apply (eqsb_sound _ 0 1); [reflexivity|vm_compute; reflexivity]. Qed.
Lemma b35_eq : equally_spaced (bars ++ [next_bar]).
Proof. apply (eqsb_sound _ 0 1); [reflexivity|vm_compute; reflexivity]. Qed.
Lemma bars_asc : ascending bars.
Proof. apply ascb_sound. vm_compute. reflexivity. Qed.
Lemma next_asc : ascending [next_bar].
Proof. apply ascb_sound. vm_compute. reflexivity. Qed.
Lemma b34_quoted : quoted bare None (D1 true) b34.
Proof.
  eapply qh_op with (m := bars); [apply qh_new|exact (bare_reads bars)|exact bars_asc|exact b34_run|].
  intros _. rewrite b34_candles. exact b34_eq.
Qed.
Lemma b34_apart : apart (D1 true) (candles b34).
Proof.
  rewrite b34_candles. split; [apply ccoarseb_sound; vm_compute; reflexivity|]. exists hundredth. split; [reflexivity|].
  apply ccoarseb_sound. vm_compute. reflexivity.
Qed.
Lemma b35_apart : apart (D1 true) (candles b35).
Proof.
  rewrite b35_candles. split; [apply ccoarseb_sound; vm_compute; reflexivity|]. exists hundredth. split; [reflexivity|].
  apply ccoarseb_sound. vm_compute. reflexivity.
Qed.

(** the oscillator, asked before the append and told of it *)
Definition ao34 : ao xq := fst (ao_y (Fin hf) 99 (D1 true) b34 (ao_init (D1 true)) (fz 33)).
Definition ao35 : ao xq := fst (ao_events ao34 (qev (q_append bare None b34 next_bar))).
Lemma bars_len : (length (candles b34) < 99)%nat.
Proof. rewrite b34_candles. apply Nat.ltb_lt. vm_compute. reflexivity. Qed.
Lemma ao34_hist : ao_hist bare None (D1 true) hf b34 ao34.
Proof.
  refine (ah_query bare None (D1 true) hf b34 (ao_init (D1 true)) (fz 33) 99 ao34 (snd (ao_y (Fin hf) 99 (D1 true) b34 (ao_init (D1 true)) (fz 33)))
    _ b34_apart bars_len _).
  - exact (ah_new bare None (D1 true) hf b34 upd_init (mid_list 34) b34_quoted (conj eq_refl eq_refl) b34_mids).
  - exact (pair2 _).
Qed.
Lemma ao35_hist : ao_hist bare None (D1 true) hf b35 ao35.
Proof.
  refine (ah_op bare None (D1 true) hf b34 ao34 (QAppend next_bar) [next_bar] b35 (qev (q_append bare None b34 next_bar)) ao35
    (snd (ao_events ao34 (qev (q_append bare None b34 next_bar)))) (mid_list 35) ao34_hist (bare_read next_bar) next_asc b35_run _ b35_mids _).
  - intros _. rewrite b35_candles. exact b35_eq.
  - exact (pair2 _).
Qed.

(** the difference of the arithmetic means at the last point *)
Lemma ao_not_means : exists s o d k, ao_hist bare None (D1 true) hf s o /\ mids (candles s) d /\ apart (D1 true) (candles s) /\ (33 <= k < length d)%nat /\
  snd (ao_y (Fin hf) 99 (D1 true) s o (Fin (at_x d k))) = Ok (Some (fr 145 132)) /\
  (total d (k - 4) 5 / QcofZ 5 - total d (k - 33) 34 / QcofZ 34)%Qc = (QcofZ 203 / QcofZ 170)%Qc.
Proof.
  exists b35, ao35, (mid_list 35), 33%nat. split; [exact ao35_hist|]. split; [exact b35_mids|]. split; [exact b35_apart|].
  split; [cbn; lia|]. split; [num|]. apply Qc_is_canon. vm_compute. reflexivity.
Qed.

(** a line of the alligator, asked before the append and told of it *)
Definition lip_ask s a x := line_y sec 3 5 (Fin hf) 99 (D1 true) s a x.
Definition lip34 : acc xq num := fst (lip_ask b34 (mid_init (D1 true)) (fz 36)).
Definition lip35 : acc xq num := fst (fst (acc_events lip34 (snd (forward upd_init (qev (q_append bare None b34 next_bar)))))).
Definition lip_upd : upd xq := fst (forward upd_init (qev (q_append bare None b34 next_bar))).
Lemma lip35_hist : mid_hist bare None (D1 true) hf 5 b35 lip_upd lip35.
Proof.
  refine (mh_op bare None (D1 true) hf 5 b34 upd_init lip34 b35 lip_upd (snd (forward upd_init (qev (q_append bare None b34 next_bar)))) lip35 _ _
    (mid_list 35) _ _ (pair31 _)).
  - refine (mh_line bare None (D1 true) hf 5 b34 upd_init (mid_init (D1 true)) sec 3 (fz 36) 99 lip34 (snd (lip_ask b34 (mid_init (D1 true)) (fz 36)))
      _ b34_apart bars_len (pair2 _)).
    exact (mh_new bare None (D1 true) hf 5 b34 upd_init (mid_list 34) b34_quoted (conj eq_refl eq_refl) b34_mids).
  - split; [|exact b35_mids]. exists (QAppend next_bar), [next_bar], (qev (q_append bare None b34 next_bar)).
    split; [exact (bare_read next_bar)|]. split; [exact next_asc|]. split; [exact b35_run|].
    split; [intros _; rewrite b35_candles; exact b35_eq|exact (pair2 _)].
Qed.
Lemma mid_list_x n k : (k < n)%nat -> at_x (mid_list n) k = sec_g (0 + Z.of_nat k).
Proof.
  intros L. unfold mid_list, at_x. rewrite (nth_indep _ _ (QcofZ (Z.of_nat 0), if (0 <? 32)%nat then 0%Qc else QcofZ (Z.of_nat 0 - 29))) by (now rewrite map_length, seq_length).
  rewrite (map_nth (fun k => (QcofZ (Z.of_nat k), if (k <? 32)%nat then 0%Qc else QcofZ (Z.of_nat k - 29))) (seq 0 n) 0%nat k).
  rewrite seq_nth by auto. cbn [fst plus]. unfold sec_g. rewrite QcofZ_0, QcofZ_1. rewrite Z.add_0_l. ring.
Qed.
