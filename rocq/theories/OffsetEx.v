(** Offset curves in binary64: examples. *)
From Coq Require Import List ZArith Reals Lia Lra Bool SpecFloat.
From Flocq Require Import Core.
From Verif Require Import Base Num Interval Curve Points Combine B64Facts GridFacts StepB64 IrregB64 ErrB64 B64Ex RoundEx SumEx OffsetB64 SlopeEx.
Import ListNotations.
Open Scope Z_scope.

(* the double nearest to 0.1 *)
Definition tenth64 : b64 := Eval vm_compute in SFdiv 53 1024 (b64_ofZ 1) (b64_ofZ 10).
Definition four : list (option b64) := [bn 5; bn 7; bn 1].
Definition from4 : pts b64 (option b64) := fst (fst (p_init (grid 4 1 0 four) ILinear true)).
Definition gap3 : list (option b64) := [None; bn 7; bn 1].
Definition gap : pts b64 (option b64) := fst (fst (p_init (grid 3 1 0 gap3) ILinear true)).
Lemma tenth_fin : finite64 tenth64. Proof. split; vm_compute; reflexivity. Qed.
Lemma tenth_val : (0 <= val64 tenth64 <= 1)%R.
Proof. unfold tenth64, val64, F2R. cbn [cond_Zopp Fnum Fexp]. simpl. lra. Qed.
Lemma tenth_abs : (Rabs (val64 tenth64) <= IZR (2 ^ 32))%R.
Proof. pose proof tenth_val. rewrite Rabs_pos_eq by lra. apply Rle_trans with 1%R; [lra|]. apply IZR_le. lia. Qed.
Definition ms64 : b64 := Eval vm_compute in n_minstep.
Lemma ms_eq : @n_minstep b64 B64 = ms64. Proof. vm_compute. reflexivity. Qed.
Lemma minstep_roomy h : 1 <= h -> roomy h n_minstep.
Proof.
  intros H. apply IZR_le in H. unfold roomy. rewrite ms_eq. unfold ms64, val64, F2R. cbn [cond_Zopp Fnum Fexp]. simpl. split; lra.
Qed.
Lemma near4 : near_offset 4 1 (length four) tenth64.
Proof. split; [cbn; lia|]. split; [cbn [length four]; lia|]. split; [exact tenth_fin|exact tenth_abs]. Qed.
Lemma small4 : grid_small 4 1 (length four). Proof. unfold grid_small. cbn [length four]. lia. Qed.
Lemma near_hours : near_offset 1600000000 3600 (length hours) tenth64.
Proof. split; [lia|]. split; [cbn [length hours]; lia|]. split; [exact tenth_fin|exact tenth_abs]. Qed.

(** the offset curve has no value at the start of its own domain *)
Lemma start_lost : let c := offset_curve tenth64 (p_crv from4) in
  i_contains (c_dom c) (i_start (c_dom c)) = true /\ i_so (c_dom c) = false /\ c_y c (i_start (c_dom c)) = Ok None /\ p_y from4 (b64_ofZ 4) = Ok (bn 5).
Proof. cbv zeta. split; [|split; [|split]]; vm_compute; reflexivity. Qed.
(** nor at a stored point next to a missing one *)
Lemma gap_lost : p_y gap (b64_ofZ 4) = Ok (bn 7) /\ c_y (offset_curve tenth64 (p_crv gap)) (n_add (b64_ofZ 4) tenth64) = Ok None.
Proof. split; vm_compute; reflexivity. Qed.

Lemma whole_all (a h k : Z) (vs : list (option b64)) (s : pts b64 (option b64)) : grid_small a h (length vs) -> (2 <= length vs)%nat -> grid_run a h 0 vs s -> Z.abs k <= 2 ^ 52 ->
  c_dom (offset_curve (b64_ofZ k) (p_crv s)) = mkI (b64_ofZ (a + k)) (b64_ofZ (a + Z.of_nat (length vs - 1) * h + k)) false false /\
  forall i v, nth_error vs i = Some v ->
  c_y (offset_curve (b64_ofZ k) (p_crv s)) (b64_ofZ (a + Z.of_nat i * h + k)) = Ok v /\
  forall m limit, step_ok h m ->
  c_next (offset_curve (b64_ofZ k) (p_crv s)) (b64_ofZ (a + Z.of_nat i * h + k)) (Some m) limit = Ok (if Nat.ltb (S i) (length vs) then Some (b64_ofZ (a + Z.of_nat (S i) * h + k)) else None) /\
  c_prev (offset_curve (b64_ofZ k) (p_crv s)) (b64_ofZ (a + Z.of_nat i * h + k)) (Some m) limit = Ok (match i with O => None | S j => Some (b64_ofZ (a + Z.of_nat j * h + k)) end) /\
  forall forward, offset_d_y (b64_ofZ k) (p_crv s) (b64_ofZ (a + Z.of_nat i * h + k)) forward (Some m) limit = d_y (p_crv s) (b64_ofZ (a + Z.of_nat i * h)) forward (Some m) limit.
Proof.
  intros SM L2 R K. pose proof (run_on_grid a h 0 vs s (small_fits a h _ SM) R) as ON. split.
  - pose proof (whole_dom a h vs s SM L2 ON k K) as E. unfold at_i in E. replace (a + Z.of_nat 0 * h) with a in E by lia. exact E.
  - intros i v E. assert (L : (i < length vs)%nat) by (apply nth_error_Some; congruence). split.
    + apply eq_trans with (1 := whole_eval a h vs s SM L2 ON k K (p_y s) i L). exact (run_y a h 0 vs s i v (small_fits a h _ SM) R E).
    + intros m limit M. split; [exact (whole_next a h vs s SM L2 ON k K i m limit L M)|]. split; [exact (whole_prev a h vs s SM L2 ON k K i m limit L M)|].
      intros forward. exact (whole_eval a h vs s SM L2 ON k K (fun x0 => d_y (p_crv s) x0 forward (Some m) limit) i L).
Qed.
Lemma off_add d k : Z.abs k <= 2 ^ 53 -> offset_x d (b64_ofZ k) = n_add (b64_ofZ k) d.
Proof. intros L. unfold offset_x. change (b64_ofZ k) with (fnum k 0). rewrite fnum_fin, finite_not_inf by (apply bnum_spec, fits0, L). reflexivity. Qed.
Lemma at_53 (a h : Z) n i : grid_small a h n -> (i < n)%nat -> Z.abs (a + Z.of_nat i * h) <= 2 ^ 53.
Proof. intros (P & A & B & C) L. nia. Qed.
Lemma visit_all (a h : Z) (vs : list (option b64)) (s : pts b64 (option b64)) (d m : b64) : grid_small a h (length vs) -> (2 <= length vs)%nat -> grid_run a h 0 vs s ->
  near_offset a h (length vs) d -> step_ok h m -> roomy h m -> forall i limit, (i < length vs)%nat ->
  c_next (offset_curve d (p_crv s)) (n_add (b64_ofZ (a + Z.of_nat i * h)) d) (Some m) limit = Ok (if Nat.ltb (S i) (length vs) then Some (n_add (b64_ofZ (a + Z.of_nat (S i) * h)) d) else None) /\
  c_prev (offset_curve d (p_crv s)) (n_add (b64_ofZ (a + Z.of_nat i * h)) d) (Some m) limit = Ok (match i with O => None | S j => Some (n_add (b64_ofZ (a + Z.of_nat j * h)) d) end).
Proof.
  intros SM L2 R ND M RM i limit L. pose proof (run_on_grid a h 0 vs s (small_fits a h _ SM) R) as ON.
  pose proof (offset_next a h vs s SM L2 ON d ND i m limit L M RM) as E1. pose proof (offset_prev a h vs s SM L2 ON d ND i m limit L M RM) as E2. unfold at_i in E1, E2.
  pose proof (off_add d _ (at_53 a h _ i SM L)) as Q. change (b64_ofZ (a + Z.of_nat i * h)) with (fnum (a + Z.of_nat i * h) 0) in Q. rewrite Q in E1, E2. split.
  - apply eq_trans with (1 := E1). destruct (Nat.ltb_spec (S i) (length vs)) as [L'|L']; [|reflexivity]. do 2 f_equal. exact (off_add d _ (at_53 a h _ (S i) SM L')).
  - apply eq_trans with (1 := E2). destruct i as [|j]; [reflexivity|]. do 2 f_equal. exact (off_add d _ (at_53 a h _ j SM ltac:(lia))).
Qed.
Lemma inner_all (a h : Z) (vs : list (option b64)) (s : pts b64 (option b64)) (d : b64) : grid_small a h (length vs) -> grid_run a h 0 vs s ->
  near_offset a h (length vs) d -> forall i, (0 < i)%nat -> (S i < length vs)%nat ->
  exists r, finite64 r /\ (Rabs (val64 r - IZR (a + Z.of_nat i * h)) <= bpow radix2 (-19))%R /\
    c_y (offset_curve d (p_crv s)) (n_add (b64_ofZ (a + Z.of_nat i * h)) d) = c_y (p_crv s) r.
Proof.
  intros SM R ND i I0 I1. rewrite <- (off_add d _ (at_53 a h _ i SM ltac:(lia))). exact (offset_inner a h vs s SM ltac:(lia) (run_on_grid a h 0 vs s (small_fits a h _ SM) R) d ND i I0 I1).
Qed.
