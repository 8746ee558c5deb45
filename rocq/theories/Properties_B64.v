(** Properties C11 (lookups that are exact) and C58 (stepping) under binary64. *)
From Coq Require Import List ZArith Bool SpecFloat.
From Verif Require Import Base Num Interval Curve Points B64Facts GridFacts StepB64 IrregB64 B64Ex.
Import ListNotations.
Open Scope Z_scope.

(** ** C11 on grids of numbers with a common power of two, whatever the history *)
Theorem C11_dyadic_grid : forall (V : Type) (W : Val b64 V) (a h e : Z) (vs : list V) (s : pts b64 V) (i : nat) (v : V),
  0 < h -> -1074 <= e <= 970 -> Z.abs a <= 2 ^ 53 ->
  Z.abs (a + Z.of_nat (length vs - 1) * h) <= 2 ^ 53 -> Z.of_nat (length vs - 1) * h <= 2 ^ 53 ->
  grid_run a h e vs s -> nth_error vs i = Some v -> p_y s (fnum (a + Z.of_nat i * h) e) = Ok v.
Proof. exact (fun V W a h e vs s i v H E A B C R N => run_y a h e vs s i v (conj H (conj E (conj A (conj B C)))) R N). Qed.
Print Assumptions C11_dyadic_grid.
Example C11_dyadic_grid_ex : grid_run 3 2 (-3) quarters qst /\ grid_fits 3 2 (-3) (length quarters) /\
  p_y qst (SFdiv 53 1024 (b64_ofZ 5) (b64_ofZ 8)) = Ok (bn 7) /\ p_y qst (fnum 11 (-3)) = Ok (bn 9).
Proof. split; [exact qst_run|]. split; [exact qst_fits|]. split; vm_compute; reflexivity. Qed.

Theorem C11_dyadic_grid_accepted : forall (V : Type) (W : Val b64 V) (a h e : Z) (vs : list V) (ip : interp) (u : bool),
  grid_fits a h e (length vs) -> snd (p_init (grid a h e vs) ip u) = Ok tt.
Proof. exact (fun V W => run_accepts). Qed.
Print Assumptions C11_dyadic_grid_accepted.
Example C11_dyadic_grid_accepted_ex : grid_fits 3 2 (-3) (length quarters) /\ snd (p_init (grid 3 2 (-3) quarters) ILinear true) = Ok tt.
Proof. split; [exact qst_fits|]. vm_compute. reflexivity. Qed.

Theorem C11_dyadic_append_accepted : forall (V : Type) (W : Val b64 V) (a h e : Z) (vs ws : list V) (s : pts b64 V),
  grid_fits a h e (length (vs ++ ws)) -> grid_run a h e vs s ->
  snd (p_append_list s (grid (a + Z.of_nat (length vs) * h) h e ws)) = Ok tt.
Proof. exact (fun V W => run_append). Qed.
Print Assumptions C11_dyadic_append_accepted.
Example C11_dyadic_append_accepted_ex : grid_fits 3 2 (-3) (length (quarters ++ [bn 4])) /\ grid_run 3 2 (-3) quarters qst /\
  snd (p_append_list qst (grid 13 2 (-3) [bn 4])) = Ok tt.
Proof. split; [unfold grid_fits; cbn; repeat split; discriminate|]. split; [exact qst_run|]. vm_compute. reflexivity. Qed.

Theorem C11_dyadic_replace_accepted : forall (V : Type) (W : Val b64 V) (a h e : Z) (vs : list V) (s : pts b64 V) (i : nat) (v : V) (oa : bool),
  grid_fits a h e (length vs) -> grid_run a h e vs s -> (i < length vs)%nat ->
  snd (p_replace s (fnum (a + Z.of_nat i * h) e, v) oa) = Ok tt.
Proof. exact (fun V W => run_replace). Qed.
Print Assumptions C11_dyadic_replace_accepted.
Example C11_dyadic_replace_accepted_ex : grid_fits 3 2 (-3) (length quarters) /\ grid_run 3 2 (-3) quarters qst /\
  snd (p_replace qst (fnum 5 (-3), bn 4) false) = Ok tt.
Proof. split; [exact qst_fits|]. split; [exact qst_run|]. vm_compute. reflexivity. Qed.

(** ** C11 for irregular positions: any increasing doubles whose gaps do not overflow *)
Theorem C11_irregular : forall (V : Type) (W : Val b64 V) (l : list (b64 * V)) (ip : interp) (i : nat) (p : b64 * V),
  increasing64 l -> snd (p_init l ip false) = Ok tt /\
  (p_eq (fst (fst (p_init l ip false))) = false -> nth_error l i = Some p -> p_y (fst (fst (p_init l ip false))) (fst p) = Ok (snd p)).
Proof.
  exact (fun V W l ip i p H => match irregular_init l H ip with
    | conj A (conj B (conj C D)) => conj A (fun E N =>
        irregular_y l H _ i p B (eq_trans (f_equal (fun b : bool => if b then true else p_eq (fst (fst (p_init l ip false)))) D) E) C N) end).
Qed.
Print Assumptions C11_irregular.
Example C11_irregular_ex : increasing64 irr /\ p_eq (fst (fst (p_init irr ILinear false))) = false /\
  p_y (fst (fst (p_init irr ILinear false))) (tenth 7) = Ok (bn 1).
Proof. split; [exact irr_inc|]. split; [exact irr_not_uniform|]. vm_compute. reflexivity. Qed.

(** ** C58 stepping from knot to knot *)
Theorem C58_next : forall (V : Type) (W : Val b64 V) (a h : Z) (vs : list V) (s : pts b64 V) (i : nat) (m : b64) (limit : option b64),
  grid_small a h (length vs) -> (2 <= length vs)%nat -> grid_run a h 0 vs s -> (i < length vs)%nat -> step_ok h m ->
  p_x_next s (b64_ofZ (a + Z.of_nat i * h)) (Some m) limit =
  Ok (if Nat.ltb (S i) (length vs) then Some (b64_ofZ (a + Z.of_nat (S i) * h)) else None).
Proof. exact (fun V W a h vs s i m limit S L R I M => next_knot a h vs s S L (run_on_grid a h 0 vs s (small_fits a h _ S) R) i m limit I M). Qed.
Print Assumptions C58_next.
Example C58_next_ex : grid_small 1600000000 3600 (length secs) /\ grid_run 1600000000 3600 0 secs sst /\ step_ok 3600 n_minstep /\
  p_x_next sst (b64_ofZ 1600003600) (Some n_minstep) None = Ok (Some (b64_ofZ 1600007200)) /\
  p_x_next sst (b64_ofZ 1600010800) (Some n_minstep) None = Ok None.
Proof. split; [exact sst_small|]. split; [apply gr_init|]. split; [exact default_step_ok|]. split; vm_compute; reflexivity. Qed.

Theorem C58_previous : forall (V : Type) (W : Val b64 V) (a h : Z) (vs : list V) (s : pts b64 V) (i : nat) (m : b64) (limit : option b64),
  grid_small a h (length vs) -> (2 <= length vs)%nat -> grid_run a h 0 vs s -> (i < length vs)%nat -> step_ok h m ->
  p_x_previous s (b64_ofZ (a + Z.of_nat i * h)) (Some m) limit =
  Ok (match i with O => None | S j => Some (b64_ofZ (a + Z.of_nat j * h)) end).
Proof. exact (fun V W a h vs s i m limit S L R I M => prev_knot a h vs s S L (run_on_grid a h 0 vs s (small_fits a h _ S) R) i m limit I M). Qed.
Print Assumptions C58_previous.
Example C58_previous_ex : grid_small 1600000000 3600 (length secs) /\ grid_run 1600000000 3600 0 secs sst /\ step_ok 3600 n_minstep /\
  p_x_previous sst (b64_ofZ 1600003600) (Some n_minstep) None = Ok (Some (b64_ofZ 1600000000)) /\
  p_x_previous sst (b64_ofZ 1600000000) (Some n_minstep) None = Ok None.
Proof. split; [exact sst_small|]. split; [apply gr_init|]. split; [exact default_step_ok|]. split; vm_compute; reflexivity. Qed.

(** from 2^37 on the default step of 1e-5 is lost to rounding: stepping never moves *)
Theorem C58_stuck_refuted : forall (V : Type) (W : Val b64 V) (a h : Z) (vs : list V) (s : pts b64 V) (i : nat) (limit : option b64),
  grid_fits a h 0 (length vs) -> grid_run a h 0 vs s -> (i < length vs)%nat -> 2 ^ 37 <= a + Z.of_nat i * h ->
  p_x_next s (b64_ofZ (a + Z.of_nat i * h)) (Some n_minstep) limit = Ok (Some (b64_ofZ (a + Z.of_nat i * h))).
Proof. exact (fun V W a h vs s i limit G R I K => stuck a h vs s i limit G (run_on_grid a h 0 vs s G R) I K). Qed.
Print Assumptions C58_stuck_refuted.
Example C58_stuck_refuted_ex : grid_fits 1600000000000 3600000 0 (length secs) /\ grid_run 1600000000000 3600000 0 secs mst /\
  p_x_next mst (b64_ofZ 1600003600000) (Some n_minstep) None = Ok (Some (b64_ofZ 1600003600000)).
Proof. split; [exact mst_fits|]. split; [apply gr_init|]. vm_compute. reflexivity. Qed.

Theorem C58_sampling_raises_refuted : exists (s : pts b64 (option b64)) vs, grid_run 1600000000000 3600000 0 vs s /\
  forall fuel, sample_points (S fuel) (p_crv s) None (Some n_minstep) None = Err EExc.
Proof. exact (ex_intro _ mst (ex_intro _ secs (conj (gr_init _ _ _ _ _ _) ms_sampling_raises))). Qed.
Print Assumptions C58_sampling_raises_refuted.
