(** Concrete lines to read, copy and extend. *)
From Coq Require Import List ZArith QArith Qcanon Bool Lia Sorting.Sorted.
From Verif Require Import Base Num NumFacts Interval Points PointsDec Trend TrendGeo TrendPred TrendPredFacts TrendLineInv TrendCol TrendTop TrendEx TrendMore TrendMoreFacts TrendCross.
Import ListNotations.
Open Scope Qc_scope.

(** Touches at 0 2 4, crossings at 8, 12 and 15. *)
Definition wave : list (Z * Z) := [(0,10);(2,10);(4,10);(5,8);(7,8);(9,12);(10,13);(11,12);(13,8);(14,7);(16,13)]%Z.
Definition wave_line : qpt * qpt := ((QcofZ 0, QcofZ 10), (QcofZ 4, QcofZ 10)).
Definition linb (t : tl xq) (l : qpt * qpt) : bool :=
  match t_line t with
  | Some ((a, b), (c, d)) => xq_eqb a (Fin (fst (fst l))) && xq_eqb b (Fin (snd (fst l))) && xq_eqb c (Fin (fst (snd l))) && xq_eqb d (Fin (snd (snd l)))
  | None => false
  end.
Lemma linb_eq t l : linb t l = true -> t_line t = Some (fs l).
Proof.
  unfold linb. destruct (t_line t) as [ [[a b] [c d]] | ]; [ | discriminate ]. rewrite !andb_true_iff. intros (((A & B) & C) & D).
  apply xq_eqb_eq in A, B, C, D. subst. reflexivity.
Qed.
(** A fit that always is a line. *)
Definition fitted (l : list (xq * xq)) : xq * xq :=
  match chord l with (Fin c, Fin m) => (Fin c, Fin m) | _ => (Fin 0, Fin 0) end.
Lemma fitted_fin ps : (3 <= length ps)%nat -> Forall fpt ps -> exists c m, fitted ps = (Fin c, Fin m).
Proof. intros _ _. unfold fitted. destruct (chord ps) as [[c| | |] [m| | |]]; eauto. Qed.
Definition wrun (l : list (Z * Z)) : res (tl xq) := lrun ceps cgold cgold2 fitted (lcfg true 2) tl0 (feed [] (zp l)).
Lemma zp_fp l : zp l = map fp (zq l).
Proof. unfold zp, zq. rewrite List.map_map. reflexivity. Qed.
Lemma wave_run : exists t, wrun wave = Ok t /\ t_line t = Some (fs wave_line) /\
  t_cross t = map fp (zq [(8,10);(12,10);(15,10)]%Z) /\ is_valid (lcfg true 2) t = true /\ i_contains (t_int t) (fz 20) = true.
Proof.
  assert (H : has (wrun wave) (fun t => linb t wave_line && peqb (t_cross t) (zp [(8,10);(12,10);(15,10)]%Z)
    && is_valid (lcfg true 2) t && i_contains (t_int t) (fz 20)) = true) by (vm_compute; reflexivity).
  apply has_ok in H. destruct H as (t & E & H). rewrite !andb_true_iff in H. destruct H as (((A & B) & C) & D).
  exists t. split; [ exact E | ]. split; [ now apply linb_eq | ]. split; [ rewrite <- zp_fp; now apply peqb_eq | auto ].
Qed.

Definition extb (r : res (tl xq)) (mult mx : option xq) (k : option Z) (x y : xq) : bool :=
  match r with
  | Ok t => match line_extended t mult mx k with
            | Ok (Some (_, (a, Some b))) => xq_eqb a x && xq_eqb b y
            | _ => false
            end
  | Err _ => false
  end.
Lemma feed_forwards l : forall sn, StronglySorted by_xs (sn ++ l) -> Forall forwards (feed (map fp sn) (map fp l)).
Proof.
  induction l as [|p l IH]; intros sn H; [ constructor | ]. cbn [map feed].
  assert (E : sn ++ p :: l = (sn ++ [p]) ++ l) by (now rewrite <- app_assoc).
  constructor.
  - split; [ now exists p | ]. exists (sn ++ [p]). split; [ now rewrite map_app | ]. rewrite E in H. now apply asc_app_inv in H.
  - change (map fp sn ++ [fp p]) with (map fp sn ++ map fp [p]). rewrite <- map_app. apply IH. now rewrite <- E.
Qed.
Fixpoint ascb (l : list qpt) : bool :=
  match l with a :: l' => forallb (fun b => Qcltb (fst a) (fst b)) l' && ascb l' | [] => true end.
Lemma ascb_ok l : ascb l = true -> StronglySorted by_xs l.
Proof.
  induction l as [|a l IH]; intro H; [ constructor | ]. cbn [ascb] in H. apply andb_true_iff in H. destruct H as [ A B ].
  constructor; [ auto | ]. apply Forall_forall. intros b Hb. rewrite forallb_forall in A. apply Qcltb_true. auto.
Qed.
Lemma wave_forwards : Forall forwards (feed [] (zp wave)).
Proof. rewrite zp_fp. apply (feed_forwards (zq wave) []). apply ascb_ok. vm_compute. reflexivity. Qed.

Lemma fp_inj p q : fp p = fp q -> p = q.
Proof. destruct p, q. unfold fp. cbn. congruence. Qed.
(** The extension of any line reaches the crossing asked for. *)
Lemma run_reaches eps gold gold2 polyfit (g : cfg xq) es t l mult k i p :
  (exists q, g_len g = Fin q) -> (forall ps, (3 <= length ps)%nat -> Forall fpt ps -> exists c m, polyfit ps = (Fin c, Fin m)) ->
  Forall forwards es -> lrun eps gold gold2 polyfit g tl0 es = Ok t ->
  t_line t = Some (fs l) -> fst (fst l) <> fst (snd l) -> (forall m, mult = Some m -> 1 <= m) ->
  place (length (t_cross t)) k i -> nth_error (t_cross t) i = Some (fp p) -> fst (fst l) <= fst p ->
  exists x y, line_extended t (fo mult) None (Some k) = Ok (Some (fp (fst l), (Fin x, Some (Fin y)))) /\ on_seg l (x, y) /\
    fst p <= x /\ forall q, nth_error (t_cross t) (S i) = Some (fp q) -> x <= fst q.
Proof.
  intros Hl Hf He R El D M Pl Ep L.
  destruct (crossings eps gold gold2 polyfit g es t Hl Hf He R) as [ (_ & C) | (l2 & cs & _ & Ec & So & _) ].
  - rewrite C in Ep. destruct i; discriminate.
  - rewrite Ec in *. rewrite map_length in Pl. rewrite map_nth_error' in Ep.
    destruct (nth_error cs i) as [ p' | ] eqn:Ep'; [ | discriminate ].
    assert (p' = p) by (apply fp_inj; cbn [option_map] in Ep; congruence). subst p'.
    destruct (extended_reaches t l cs mult k i p El D Ec So M Pl Ep' L) as (x & y & A & B & C & F).
    exists x, y. split; [ exact A | ]. split; [ exact B | ]. split; [ exact C | ]. intros q Hq. rewrite map_nth_error' in Hq.
    destruct (nth_error cs (S i)) as [ q' | ] eqn:Eq; [ | discriminate ].
    assert (q' = q) by (apply fp_inj; cbn [option_map] in Hq; congruence). subst q'. now apply F.
Qed.

Lemma fit_exact' : forall eps r a polyfit c m ps, 0 <= eps -> nonneg_o r -> nonneg_o a ->
  polyfit (map fp ps) = (Fin c, Fin m) -> Forall (fun p => snd p = c + m * fst p) ps ->
  fit_within (Fin eps) polyfit (fo r) (fo a) (map fp ps) = Ok true.
Proof. intros. apply (fit_exact eps (Fin 0) true 0%Z) with (c := c) (m := m); assumption. Qed.
Lemma method_exact' : forall eps wd di ln up mp r a polyfit c m ps, nonneg_o r -> nonneg_o a ->
  polyfit (map fp ps) = (Fin c, Fin m) -> Forall (fun p => snd p = c + m * fst p) ps ->
  (3 <= length ps)%nat -> Forall (fun p => 0 <= snd p \/ r = None) ps ->
  method_fit (Fin eps) polyfit (mkG wd up mp di ln (fo r) (fo a)) (map fp ps) = false.
Proof. intros. eapply method_exact; eauto. Qed.
Lemma pair2eq (p : xq * xq) a b : xq_eqb (fst p) a && xq_eqb (snd p) b = true -> p = (a, b).
Proof. destruct p. cbn [fst snd]. rewrite andb_true_iff. intros [ A B ]. apply xq_eqb_eq in A, B. congruence. Qed.
