(** What feeding points to _extrema_scan confirms. *)
From Coq Require Import List ZArith QArith Qcanon Bool Lia Sorting.Sorted.
From Verif Require Import Base Num NumFacts Interval Points PointsIdx PointsOps Combine Scan Extremas.
Import ListNotations.
Open Scope Qc_scope.

Definition spt := (Qc * option Qc)%type.
Definition fsp (p : spt) : xq * option xq := (Fin (fst p), option_map Fin (snd p)).
Definition fqp (p : Qc * Qc) : xq * xq := (Fin (fst p), Fin (snd p)).

Section Fold.
Context (dev : Qc) (R : Qc -> option Qc).
Definition ref_fun : xq -> res (option xq) := fun x => match x with Fin q => Ok (option_map Fin (R q)) | _ => Ok None end.

(** ** Specification *)
(** A point whose ratio to the reference deviates by more than min_deviation. *)
Definition deviates (p : Qc * Qc) : Prop := exists y0, R (fst p) = Some y0 /\
  (dev < snd p / y0 - 1 \/ dev < 1 - snd p / y0).
Definition above (p : Qc * Qc) : Prop := exists y0, R (fst p) = Some y0 /\ y0 < snd p.
Definition below (p : Qc * Qc) : Prop := exists y0, R (fst p) = Some y0 /\ snd p < y0.
(** [run] is on one side of the reference and [p] is its first most extreme point. *)
Definition peak (p : Qc * Qc) (run : list (Qc * Qc)) : Prop :=
  exists a b, run = a ++ p :: b /\
    ((Forall above run /\ Forall (fun q => snd q < snd p) a /\ Forall (fun q => snd q <= snd p) b) \/
     (Forall below run /\ Forall (fun q => snd p < snd q) a /\ Forall (fun q => snd p <= snd q) b)).
Definition opposite (r1 r2 : list (Qc * Qc)) : Prop :=
  (Forall above r1 /\ Forall below r2) \/ (Forall below r1 /\ Forall above r2).
Definition alternate (runs : list (list (Qc * Qc))) : Prop :=
  forall i r1 r2, nth_error runs i = Some r1 -> nth_error runs (S i) = Some r2 -> opposite r1 r2.
(** [sel] are the deviating points of [l], in order. *)
Inductive selects : list spt -> list (Qc * Qc) -> Prop :=
| sel_nil : selects [] []
| sel_take x y l s : deviates (x, y) -> selects l s -> selects ((x, Some y) :: l) ((x, y) :: s)
| sel_none x l s : selects l s -> selects ((x, None) :: l) s
| sel_near x y l s : ~ deviates (x, y) -> selects l s -> selects ((x, Some y) :: l) s.
(** The deviating points fall into runs of one side each; all but the last run
    have given a confirmed extrema, the last one the possible extrema. *)
Definition extremas_of (l : list spt) (exts : list (Qc * Qc)) (poss : option (Qc * Qc)) : Prop :=
  exists sel runs, selects l sel /\ concat runs = sel /\ alternate runs /\
    match poss with
    | None => runs = [] /\ exts = []
    | Some p => exists conf cur, runs = conf ++ [cur] /\ Forall2 peak exts conf /\ peak p cur
    end.

(** ** The step *)
Definition ref_nonzero (p : spt) : Prop := snd p <> None -> R (fst p) <> Some 0.
Definition phase_of (p : Qc * Qc) : option xq := option_map (fun y0 => Fin (snd p - y0)) (R (fst p)).
Record holds (e : exs xq) (exts : list (Qc * Qc)) (poss : option (Qc * Qc)) : Prop := {
  hd_ext : x_ext e = map fqp exts;
  hd_int : x_int e = ext_interval (x_ext e);
  hd_poss : x_poss e = option_map fqp poss;
  hd_phase : x_phase e = match poss with Some p => phase_of p | None => None end
}.

Definition devb (y y0 : Qc) : bool := Qcltb dev (y / y0 - 1) || Qcltb dev (1 - y / y0).
Lemma devb_abs y y0 : (n_abs (n_sub (Fin (y / y0)) n_one) <=? Fin dev)%num = negb (devb y y0).
Proof.
  unfold devb. cbn [n_abs n_sub n_leb n_one n_ofZ XQ xq_sub xq_leb]. unfold n_one. cbn [n_ofZ XQ xq_sub].
  change (QcofZ 1) with 1. set (z := y / y0).
  destruct (Qcleb 0 (z - 1)) eqn:E, (Qcltb dev (z - 1)) eqn:A, (Qcltb dev (1 - z)) eqn:B; cbn [orb negb xq_leb]; qb_simpl.
  all: match goal with |- Qcleb ?a ?b = _ => destruct (Qcleb a b) eqn:C end; qb_simpl; auto; exfalso; qc_lra.
Qed.
Lemma devb_iff x y y0 : R x = Some y0 -> devb y y0 = true <-> deviates (x, y).
Proof.
  intros E. unfold devb, deviates. cbn [fst snd]. rewrite orb_true_iff, !Qcltb_true. split.
  - intros H. exists y0. tauto.
  - intros [y1 [E1 H]]. rewrite E in E1. injection E1 as <-. exact H.
Qed.
Lemma dev_phase y y0 : 0 <= dev -> y0 <> 0 -> devb y y0 = true -> y <> y0.
Proof.
  intros D Z H ->. unfold devb in H. rewrite orb_true_iff, !Qcltb_true in H.
  replace (y0 / y0) with 1 in H by (field; auto). destruct H; qc_lra.
Qed.

Lemma selects_app l1 s1 l2 s2 : selects l1 s1 -> selects l2 s2 -> selects (l1 ++ l2) (s1 ++ s2).
Proof. induction 1; intros; cbn; try constructor; auto. Qed.

Lemma concat_snoc {A} (l : list (list A)) x : concat (l ++ [x]) = concat l ++ x.
Proof. rewrite concat_app. cbn. now rewrite app_nil_r. Qed.

Lemma nth_snoc {A} (l : list A) x i y : nth_error (l ++ [x]) i = Some y -> (nth_error l i = Some y /\ (i < length l)%nat) \/ (i = length l /\ y = x).
Proof.
  intros H. destruct (Nat.lt_ge_cases i (length l)) as [L|L].
  - rewrite nth_error_app1 in H by auto. auto.
  - rewrite nth_error_app2 in H by auto. destruct (i - length l)%nat eqn:E; cbn in H.
    + injection H as <-. right. split; auto. lia.
    + destruct n; discriminate.
Qed.

Lemma alternate_last conf cur cur' : alternate (conf ++ [cur]) ->
  ((Forall above cur -> Forall above cur') /\ (Forall below cur -> Forall below cur')) -> alternate (conf ++ [cur']).
Proof.
  intros H [U L] i r1 r2 E1 E2. apply nth_snoc in E2. destruct E2 as [[E2 L2]|[E2 ->]].
  - apply nth_snoc in E1. destruct E1 as [[E1 L1]|[E1 ->]]; [|lia].
    apply (H i); rewrite nth_error_app1; auto; lia.
  - apply nth_snoc in E1. destruct E1 as [[E1 L1]|[E1 ->]]; [|lia].
    assert (opposite r1 cur).
    { apply (H i); [rewrite nth_error_app1; auto|]. rewrite nth_error_app2 by lia. rewrite E2, Nat.sub_diag. reflexivity. }
    destruct H0 as [[? ?]|[? ?]]; [left|right]; auto.
Qed.
Lemma alternate_new conf cur r : alternate (conf ++ [cur]) -> opposite cur r -> alternate ((conf ++ [cur]) ++ [r]).
Proof.
  intros H O i r1 r2 E1 E2. apply nth_snoc in E2. destruct E2 as [[E2 L2]|[E2 ->]].
  - apply nth_snoc in E1. destruct E1 as [[E1 L1]|[E1 ->]]; [|lia]. eapply H; eauto.
  - apply nth_snoc in E1. destruct E1 as [[E1 L1]|[E1 ->]]; [|lia].
    apply nth_snoc in E1. rewrite app_length in *. cbn in *. destruct E1 as [[_ ?]|[_ ->]]; [lia|exact O].
Qed.

(** ** How a point extends the decomposition *)
Lemma ext_skip l s exts poss : extremas_of l exts poss -> selects [s] [] -> extremas_of (l ++ [s]) exts poss.
Proof.
  intros (sel & runs & S1 & C & A & M) S2. exists sel, runs. repeat split; auto.
  rewrite <- (app_nil_r sel). now apply selects_app.
Qed.
Lemma sel_one x y : deviates (x, y) -> selects [(x, Some y)] [(x, y)].
Proof. intros. constructor; auto. constructor. Qed.
Lemma ext_first l exts x y : extremas_of l exts None -> deviates (x, y) -> above (x, y) \/ below (x, y) ->
  extremas_of (l ++ [(x, Some y)]) exts (Some (x, y)).
Proof.
  intros (sel & runs & S1 & C & A & -> & ->) D SD. cbn in C. subst sel. exists [(x, y)], [[(x, y)]]. repeat split.
  - apply (selects_app l [] _ _ S1). now apply sel_one.
  - intros i r1 r2 _ E. destruct i; cbn in E; [discriminate|destruct i; discriminate].
  - exists [], [(x, y)]. repeat split; auto. exists [], []. split; auto.
    destruct SD; [left|right]; repeat split; auto.
Qed.
Lemma peak_side p run : peak p run -> (above p -> Forall above run) /\ (below p -> Forall below run).
Proof.
  intros (a & b & -> & H). 
  assert (X : Forall above (a ++ p :: b) -> below p -> False).
  { intros F (y & E & L). rewrite Forall_app in F. destruct F as [_ F]. inversion F; subst.
    destruct H2 as (y' & E' & L'). rewrite E in E'. injection E' as <-. qc_lra. }
  assert (Y : Forall below (a ++ p :: b) -> above p -> False).
  { intros F (y & E & L). rewrite Forall_app in F. destruct F as [_ F]. inversion F; subst.
    destruct H2 as (y' & E' & L'). rewrite E in E'. injection E' as <-. qc_lra. }
  destruct H as [(F & _)|(F & _)]; split; intros; auto; exfalso; eauto.
Qed.
Lemma sides_excl p : above p -> below p -> False.
Proof. intros (y & E & L) (y' & E' & L'). rewrite E in E'. injection E' as <-. qc_lra. Qed.
Lemma peak_in p run : peak p run -> In p run.
Proof. intros (a & b & -> & _). apply in_or_app. right. now left. Qed.

(** another point of the same side, not more extreme *)
Lemma ext_same_keep l exts p x y : extremas_of l exts (Some p) -> deviates (x, y) ->
  (above p /\ above (x, y) /\ y <= snd p) \/ (below p /\ below (x, y) /\ snd p <= y) ->
  extremas_of (l ++ [(x, Some y)]) exts (Some p).
Proof.
  intros (sel & runs & S1 & C & A & conf & cur & -> & F & P) D SD.
  exists (sel ++ [(x, y)]), (conf ++ [cur ++ [(x, y)]]). repeat split.
  - apply selects_app; auto. now apply sel_one.
  - rewrite concat_snoc in *. now rewrite app_assoc, C.
  - destruct (peak_side p cur P) as [U L]. apply (alternate_last conf cur); auto. split; intros G; apply Forall_app; split; auto.
    + constructor; auto. destruct SD as [(?&?&?)|(B&?&?)]; auto. exfalso. apply (sides_excl p); auto.
      rewrite Forall_forall in G. apply G. now apply peak_in.
    + constructor; auto. destruct SD as [(?&?&?)|(B&?&?)]; auto. exfalso. apply (sides_excl p); auto.
      rewrite Forall_forall in G. apply G. now apply peak_in.
  - exists conf, (cur ++ [(x, y)]). repeat split; auto.
    destruct (peak_side p cur P) as [U L]. destruct P as (a & b & -> & H). exists a, (b ++ [(x, y)]).
    split; [now rewrite <- app_assoc|]. destruct SD as [(S&S'&Le)|(S&S'&Le)].
    + left. repeat split.
      * apply Forall_app. split; auto.
      * destruct H as [(_ & H & _)|(G & _)]; auto. exfalso. apply (sides_excl p); auto.
        rewrite Forall_forall in G. apply G. apply in_or_app. right. now left.
      * apply Forall_app. split; auto. destruct H as [(_ & _ & H)|(G & _)]; auto. exfalso. apply (sides_excl p); auto.
        rewrite Forall_forall in G. apply G. apply in_or_app. right. now left.
    + right. repeat split.
      * apply Forall_app. split; auto.
      * destruct H as [(G & _)|(_ & H & _)]; auto. exfalso. apply (sides_excl p); auto.
        rewrite Forall_forall in G. apply G. apply in_or_app. right. now left.
      * apply Forall_app. split; auto. destruct H as [(G & _)|(_ & _ & H)]; auto. exfalso. apply (sides_excl p); auto.
        rewrite Forall_forall in G. apply G. apply in_or_app. right. now left.
Qed.
(** a more extreme one *)
Lemma ext_same_more l exts p x y : extremas_of l exts (Some p) -> deviates (x, y) ->
  (above p /\ above (x, y) /\ snd p < y) \/ (below p /\ below (x, y) /\ y < snd p) ->
  extremas_of (l ++ [(x, Some y)]) exts (Some (x, y)).
Proof.
  intros (sel & runs & S1 & C & A & conf & cur & -> & F & P) D SD.
  exists (sel ++ [(x, y)]), (conf ++ [cur ++ [(x, y)]]). repeat split.
  - apply selects_app; auto. now apply sel_one.
  - rewrite concat_snoc in *. now rewrite app_assoc, C.
  - apply (alternate_last conf cur); auto. split; intros G; apply Forall_app; split; auto.
    + constructor; auto. destruct SD as [(?&?&?)|(B&?&?)]; auto. exfalso. apply (sides_excl p); auto.
      rewrite Forall_forall in G. apply G. now apply peak_in.
    + constructor; auto. destruct SD as [(?&?&?)|(B&?&?)]; auto. exfalso. apply (sides_excl p); auto.
      rewrite Forall_forall in G. apply G. now apply peak_in.
  - exists conf, (cur ++ [(x, y)]). repeat split; auto.
    destruct (peak_side p cur P) as [U L]. destruct P as (a & b & -> & H). exists (a ++ p :: b), [].
    split; [reflexivity|]. destruct SD as [(S&S'&Le)|(S&S'&Le)].
    + left. repeat split; auto.
      * apply Forall_app. split; auto.
      * destruct H as [(_ & H1 & H2)|(G & _)].
        -- apply Forall_app. split; [|constructor]; try (eapply Forall_impl; [|eassumption]); cbn; intros; qc_lra.
        -- exfalso. apply (sides_excl p); auto.
           rewrite Forall_forall in G. apply G. apply in_or_app. right. now left.
    + right. repeat split; auto.
      * apply Forall_app. split; auto.
      * destruct H as [(G & _)|(_ & H1 & H2)].
        -- exfalso. apply (sides_excl p); auto.
           rewrite Forall_forall in G. apply G. apply in_or_app. right. now left.
        -- apply Forall_app. split; [|constructor]; try (eapply Forall_impl; [|eassumption]); cbn; intros; qc_lra.
Qed.
(** the other side *)
Lemma ext_turn l exts p x y : extremas_of l exts (Some p) -> deviates (x, y) ->
  (above p /\ below (x, y)) \/ (below p /\ above (x, y)) ->
  extremas_of (l ++ [(x, Some y)]) (exts ++ [p]) (Some (x, y)).
Proof.
  intros (sel & runs & S1 & C & A & conf & cur & -> & F & P) D SD.
  destruct (peak_side p cur P) as [U L].
  exists (sel ++ [(x, y)]), ((conf ++ [cur]) ++ [[(x, y)]]). repeat split.
  - apply selects_app; auto. now apply sel_one.
  - rewrite concat_snoc. now rewrite C.
  - apply alternate_new; auto. destruct SD as [[? ?]|[? ?]]; [left|right]; split; auto.
  - exists (conf ++ [cur]), [(x, y)]. repeat split; auto.
    + apply Forall2_app; auto.
    + exists [], []. split; auto. destruct SD as [[? ?]|[? ?]]; [right|left]; repeat split; auto.
Qed.

Lemma poss_side l exts p : extremas_of l exts (Some p) -> above p \/ below p.
Proof.
  intros (_ & _ & _ & _ & _ & conf & cur & _ & _ & a & b & E & [(F & _)|(F & _)]); [left|right];
  rewrite Forall_forall in F; apply F; rewrite E; apply in_or_app; right; now left.
Qed.

(** ** One step of the code *)
Lemma scan_step l e exts poss s : 0 <= dev -> ref_nonzero s -> holds e exts poss -> extremas_of l exts poss ->
  exists e' exts' poss', extrema_scan (Fin dev) ref_fun e (Fin (fst s)) (option_map Fin (snd s)) = (e', Ok tt) /\
    holds e' exts' poss' /\ extremas_of (l ++ [s]) exts' poss' /\
    x_cur e' = x_cur e /\ x_start e' = x_start e /\ x_upd e' = x_upd e /\
    (exts' = exts \/ exists p, poss = Some p /\ exts' = exts ++ [p]).
Proof.
  intros D NZ H X. destruct s as [x [y|]]; cbn [fst snd option_map extrema_scan].
  2:{ exists e, exts, poss. repeat split; auto; try apply H. apply ext_skip; auto. constructor. constructor. }
  cbn [ref_fun]. unfold ref_nonzero in NZ. cbn in NZ. destruct (R x) as [y0|] eqn:Ex; cbn [option_map].
  2:{ exists e, exts, poss. repeat split; auto; try apply H. apply ext_skip; auto. apply sel_near; [|constructor].
      intros (y1 & E1 & _). cbn in E1. congruence. }
  assert (Z : y0 <> 0) by (intros ->; apply NZ; congruence).
  cbn [n_div XQ xq_div]. destruct (Qceqb y0 0) eqn:EZ; qb_simpl; [contradiction|].
  rewrite devb_abs. destruct (devb y y0) eqn:DV; cbn [negb].
  2:{ exists e, exts, poss. repeat split; auto; try apply H. apply ext_skip; auto. apply sel_near; [|constructor].
      rewrite <- (devb_iff x y y0 Ex). congruence. }
  pose proof (proj1 (devb_iff x y y0 Ex) DV) as DD. pose proof (dev_phase y y0 D Z DV) as PH.
  assert (AB : forall q, above (x, q) <-> y0 < q).
  { intros q. split; [intros (y1 & E1 & L)|intros L; exists y0; auto]. cbn in *. rewrite Ex in E1. now injection E1 as <-. }
  assert (BB : forall q, below (x, q) <-> q < y0).
  { intros q. split; [intros (y1 & E1 & L)|intros L; exists y0; auto]. cbn in *. rewrite Ex in E1. now injection E1 as <-. }
  assert (SD : above (x, y) \/ below (x, y)).
  { rewrite AB, BB. destruct (Qclt_le_dec y0 y) as [L|L]; auto. right. apply Qcle_lt_or_eq in L. destruct L; congruence. }
  destruct H as [HE HI HP HF]. rewrite HP, HF. destruct poss as [[px py]|]; cbn [option_map].
  2:{ eexists _, exts, (Some (x, y)). split; [reflexivity|]. repeat split; auto.
      - cbn. unfold phase_of. cbn. now rewrite Ex.
      - apply ext_first; auto. }
  cbn [fqp fst snd]. unfold phase_of at 1. cbn [fst snd]. unfold fqp. cbn [fst snd].
  pose proof (poss_side _ _ _ X) as PS.
  destruct (R px) as [pr|] eqn:Ep; cbn [option_map].
  2:{ exfalso. destruct PS as [(? & E & _)|(? & E & _)]; cbn in E; congruence. }
  assert (PA : above (px, py) <-> pr < py).
  { split; [intros (y1 & E1 & L)|intros L; exists pr; auto]. cbn in *. rewrite Ep in E1. now injection E1 as <-. }
  assert (PB : below (px, py) <-> py < pr).
  { split; [intros (y1 & E1 & L)|intros L; exists pr; auto]. cbn in *. rewrite Ep in E1. now injection E1 as <-. }
  cbn [n_sub n_mul n_ltb n_zero n_ofZ XQ xq_sub xq_mul xq_ltb]. unfold n_zero. cbn [n_ofZ XQ xq_sub xq_mul xq_ltb].
  change (QcofZ 0) with 0. rewrite AB, BB in SD. rewrite PA, PB in PS.
  destruct (Qcltb ((py - pr) * (y - y0)) 0) eqn:T; qb_simpl.
  - unfold confirm. rewrite HP. cbn [option_map]. unfold did_update, xset_poss. cbn [x_start x_cur x_ext x_int x_upd].
    eexists _, (exts ++ [(px, py)]), (Some (x, y)). split; [reflexivity|]. cbn [x_start x_cur x_ext x_int x_upd x_poss x_phase]. repeat split; auto.
    + cbn [x_ext]. rewrite HE, map_app. reflexivity.
    + cbn. unfold phase_of. cbn. now rewrite Ex.
    + apply ext_turn; auto. rewrite AB, BB, PA, PB.
      destruct SD, PS; auto; exfalso; qc_nra.
    + right. eauto.
  - assert (SS : (pr < py /\ y0 < y) \/ (py < pr /\ y < y0)) by (destruct SD, PS; auto; exfalso; qc_nra).
    destruct ((Qcltb 0 (y - y0) && Qcltb py y || Qcltb (y - y0) 0 && Qcltb y py)%bool) eqn:MM.
    + eexists _, exts, (Some (x, y)). split; [reflexivity|]. repeat split; auto.
      * cbn. unfold phase_of. cbn. now rewrite Ex.
      * apply (ext_same_more l exts (px, py)); auto. cbn [fst snd]. rewrite PA, PB, AB, BB.
        apply orb_true_iff in MM. rewrite !andb_true_iff, !Qcltb_true in MM.
        destruct MM as [[? ?]|[? ?]], SS as [[? ?]|[? ?]]; auto; exfalso; qc_lra.
    + exists e, exts, (Some (px, py)). split; [reflexivity|]. repeat split; auto.
      apply (ext_same_keep l exts (px, py)); auto. cbn [fst snd]. rewrite PA, PB, AB, BB.
      apply orb_false_iff in MM. rewrite !andb_false_iff, !Qcltb_false in MM.
      destruct MM as [M1 M2], SS as [[? ?]|[? ?]]; [left|right]; repeat split; auto.
      * destruct M1; auto. exfalso; qc_lra.
      * destruct M2; auto. exfalso; qc_lra.
Qed.

(** Feeding a list of points. *)
Fixpoint feed (e : exs xq) (l : list spt) : exs xq * res unit :=
  match l with
  | [] => (e, Ok tt)
  | p :: l' => let '(e, t) := extrema_scan (Fin dev) ref_fun e (Fin (fst p)) (option_map Fin (snd p)) in
               match t with Ok _ => feed e l' | Err er => (e, Err er) end
  end.
Lemma feed_gen l2 : forall l1 e exts poss, 0 <= dev -> Forall ref_nonzero l2 -> holds e exts poss -> extremas_of l1 exts poss ->
  exists e' exts' poss', feed e l2 = (e', Ok tt) /\ holds e' exts' poss' /\ extremas_of (l1 ++ l2) exts' poss'.
Proof.
  induction l2 as [|s l2 IH]; intros l1 e exts poss D NZ H X.
  - exists e, exts, poss. rewrite app_nil_r. auto.
  - inversion NZ; subst. destruct (scan_step l1 e exts poss s D) as (e1 & ex1 & ps1 & E1 & H1 & X1 & _); auto.
    cbn [feed]. rewrite E1. destruct (IH (l1 ++ [s]) e1 ex1 ps1 D) as (e2 & ex2 & ps2 & E2 & Hh2 & X2); auto.
    exists e2, ex2, ps2. rewrite <- app_assoc in X2. auto.
Qed.
Lemma holds_init : holds ex_init [] None.
Proof. constructor; reflexivity. Qed.
Lemma extremas_nil : extremas_of [] [] None.
Proof. exists [], []. refine (conj sel_nil (conj eq_refl (conj _ (conj eq_refl eq_refl)))). intros i r1 r2 E. destruct i; discriminate. Qed.
Theorem feed_spec l : 0 <= dev -> Forall ref_nonzero l ->
  exists e exts poss, feed ex_init l = (e, Ok tt) /\ x_ext e = map fqp exts /\ x_poss e = option_map fqp poss /\ extremas_of l exts poss.
Proof.
  intros D NZ. destruct (feed_gen l [] ex_init [] None D NZ holds_init extremas_nil) as (e & exts & poss & E & H & X).
  exists e, exts, poss. repeat split; auto; apply H.
Qed.
End Fold.
