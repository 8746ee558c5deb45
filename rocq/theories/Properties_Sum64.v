(** C80: combinations of curves in double arithmetic.  [val64] is the real
    number a finite double stands for, [eps] is 2^-53 and [tiny] is 2^-1075.
    [number64]: not nan; [ival64]: neither end is nan. *)
From Coq Require Import List ZArith Reals Lia Lra Bool SpecFloat.
From Flocq Require Import Core.
From Verif Require Import Base Num Interval Curve Points Combine B64Facts GridFacts StepB64 IrregB64 ErrB64 B64Ex RoundEx SumB64 SumErrB64 ProdB64 SumEx.
Import ListNotations.
Open Scope Z_scope.

(** the domain of a combination is the intersection of the domains *)
Theorem C80_domain : forall (funcs : list (crv b64 (option b64))) (x : b64), funcs <> [] -> Forall (fun f => ival64 (c_dom f)) funcs -> number64 x ->
  (i_contains (c_dom (add_many funcs)) x = true <-> Forall (fun f => i_contains (c_dom f) x = true) funcs).
Proof. exact agg_inside. Qed.
Print Assumptions C80_domain.
Example C80_domain_ex : Forall (fun f => ival64 (c_dom f)) three64 /\ number64 (b64_ofZ 4) /\ i_contains (c_dom (add_many three64)) (b64_ofZ 4) = true /\ i_contains (c_dom (add_many three64)) (b64_ofZ 10) = false.
Proof. split; [exact three_doms|]. split; [apply num_at; lia|]. split; vm_compute; reflexivity. Qed.

(** sums of any number of curves *)
Theorem C80_sum : forall (funcs : list (crv b64 (option b64))) (x : b64) (ys : list b64), funcs <> [] -> Forall (fun f => ival64 (c_dom f)) funcs -> number64 x ->
  Forall2 (fun f y => i_contains (c_dom f) x = true /\ c_y f x = Ok (Some y)) funcs ys ->
  Forall finite64 ys -> Z.of_nat (length ys) <= 2 ^ 50 -> (fold_right Rplus 0 (map (fun y => Rabs (val64 y)) ys) <= bpow radix2 1019)%R ->
  exists r, c_y (add_many funcs) x = Ok (Some r) /\ finite64 r /\
    (Rabs (val64 r - fold_right Rplus 0 (map val64 ys)) <= 2 * INR (length ys) * eps * fold_right Rplus 0 (map (fun y => Rabs (val64 y)) ys))%R.
Proof. exact sum_near. Qed.
Print Assumptions C80_sum.
Example C80_sum_ex : three64 <> [] /\ Forall2 (fun f y => i_contains (c_dom f) (b64_ofZ 4) = true /\ c_y f (b64_ofZ 4) = Ok (Some y)) three64 ys64 /\ Forall finite64 ys64 /\
  (fold_right Rplus 0 (map (fun y => Rabs (val64 y)) ys64) <= bpow radix2 1019)%R /\ c_y (add_many three64) (b64_ofZ 4) = Ok (bn 9).
Proof.
  split; [discriminate|]. split; [exact three_values|]. split; [exact ys_finite|]. split; [|vm_compute; reflexivity].
  apply Rle_trans with 15%R; [right; exact ys_sizes|]. apply Rle_trans with (bpow radix2 53); [change (bpow radix2 53) with (IZR (2 ^ 53)); apply IZR_le; lia|apply bpow_le; lia].
Qed.

(** a sum does not fall when its operands rise *)
Theorem C80_sum_monotone : forall (fs gs : list (crv b64 (option b64))) (x : b64) (ys zs : list b64),
  fs <> [] -> gs <> [] -> Forall (fun f => ival64 (c_dom f)) fs -> Forall (fun f => ival64 (c_dom f)) gs -> number64 x ->
  Forall2 (fun f y => i_contains (c_dom f) x = true /\ c_y f x = Ok (Some y)) fs ys -> Forall2 (fun f y => i_contains (c_dom f) x = true /\ c_y f x = Ok (Some y)) gs zs ->
  Forall2 (fun y z => finite64 y /\ finite64 z /\ (val64 y <= val64 z)%R) ys zs -> Z.of_nat (length ys) <= 2 ^ 50 ->
  (fold_right Rplus 0 (map (fun y => Rabs (val64 y)) ys) + fold_right Rplus 0 (map (fun y => Rabs (val64 y)) zs) <= bpow radix2 1019)%R ->
  exists r v, c_y (add_many fs) x = Ok (Some r) /\ c_y (add_many gs) x = Ok (Some v) /\ (val64 r <= val64 v)%R.
Proof. exact sum_mono. Qed.
Print Assumptions C80_sum_monotone.
Example C80_sum_monotone_ex : Forall2 (fun y z => finite64 y /\ finite64 z /\ (val64 y <= val64 z)%R) [b64_ofZ 7; b64_ofZ 2] [b64_ofZ 7; b64_ofZ 3] /\
  c_y (add_many [k64 (b64_ofZ 7); k64 (b64_ofZ 2)]) (b64_ofZ 4) = Ok (bn 9) /\ c_y (add_many [k64 (b64_ofZ 7); k64 (b64_ofZ 3)]) (b64_ofZ 4) = Ok (bn 10).
Proof.
  split; [|split; vm_compute; reflexivity]. repeat constructor; try (apply val_ofZ; lia); rewrite !whole_val by lia; lra.
Qed.

Theorem C80_difference : forall (funcs : list (crv b64 (option b64))) (x : b64) (ys : list b64), funcs <> [] -> Forall (fun f => ival64 (c_dom f)) funcs -> number64 x ->
  Forall2 (fun f y => i_contains (c_dom f) x = true /\ c_y f x = Ok (Some y)) funcs ys ->
  forall y r, ys = y :: r -> Forall finite64 ys -> Z.of_nat (length ys) <= 2 ^ 50 -> (fold_right Rplus 0 (map (fun y => Rabs (val64 y)) ys) <= bpow radix2 1019)%R ->
  exists v, c_y (subtract_many funcs) x = Ok (Some v) /\ finite64 v /\
    (Rabs (val64 v - (val64 y - fold_right Rplus 0 (map val64 r))) <= 2 * INR (length r) * eps * fold_right Rplus 0 (map (fun y => Rabs (val64 y)) ys))%R.
Proof. exact difference_near. Qed.
Print Assumptions C80_difference.
Example C80_difference_ex : ys64 = b64_ofZ 7 :: [b64_ofZ (-3); b64_ofZ 5] /\ c_y (subtract_many three64) (b64_ofZ 4) = Ok (bn 5).
Proof. split; [reflexivity|vm_compute; reflexivity]. Qed.

(** products and quotients whose exact partial results stay between 2^-1000
    and 2^1000 *)
Theorem C80_product : forall (funcs : list (crv b64 (option b64))) (x : b64) (ys : list b64), funcs <> [] -> Forall (fun f => ival64 (c_dom f)) funcs -> number64 x ->
  Forall2 (fun f y => i_contains (c_dom f) x = true /\ c_y f x = Ok (Some y)) funcs ys ->
  Forall (fun y => finite64 y /\ val64 y <> 0%R) ys -> Z.of_nat (length ys) <= 2 ^ 50 ->
  (forall j, (1 <= j <= length ys)%nat -> (bpow radix2 (-1000) <= Rabs (fold_right Rmult 1 (map val64 (firstn j ys))) <= bpow radix2 1000)%R) ->
  exists r, c_y (multiply_many funcs) x = Ok (Some r) /\ finite64 r /\
    (Rabs (val64 r - fold_right Rmult 1 (map val64 ys)) <= 2 * INR (length ys) * eps * Rabs (fold_right Rmult 1 (map val64 ys)))%R.
Proof. exact product_near. Qed.
Print Assumptions C80_product.
Theorem C80_quotient : forall (funcs : list (crv b64 (option b64))) (x : b64) (ys : list b64), funcs <> [] -> Forall (fun f => ival64 (c_dom f)) funcs -> number64 x ->
  Forall2 (fun f y => i_contains (c_dom f) x = true /\ c_y f x = Ok (Some y)) funcs ys ->
  forall y r, ys = y :: r -> finite64 y -> Forall (fun y => finite64 y /\ val64 y <> 0%R) r -> Z.of_nat (length ys) <= 2 ^ 50 ->
  (forall j, (1 <= j <= length r)%nat -> (bpow radix2 (-1000) <= Rabs (val64 y / fold_right Rmult 1 (map val64 (firstn j r))) <= bpow radix2 1000)%R) ->
  exists v, c_y (divide_many funcs) x = Ok (Some v) /\ finite64 v /\
    (Rabs (val64 v - val64 y / fold_right Rmult 1 (map val64 r)) <= 2 * INR (length r) * eps * Rabs (val64 y / fold_right Rmult 1 (map val64 r)))%R.
Proof. exact quotient_near. Qed.
Print Assumptions C80_quotient.
Example C80_product_ex : Forall (fun y => finite64 y /\ val64 y <> 0%R) ys64 /\
  (forall j, (1 <= j <= length ys64)%nat -> (bpow radix2 (-1000) <= Rabs (fold_right Rmult 1 (map val64 (firstn j ys64))) <= bpow radix2 1000)%R) /\
  c_y (multiply_many three64) (b64_ofZ 4) = Ok (bn (-105)) /\ c_y (divide_many [k64 (b64_ofZ 12); k64 (b64_ofZ 3); k64 (b64_ofZ 2)]) (b64_ofZ 4) = Ok (bn 2).
Proof. split; [exact ys_nonzero|]. split; [exact ys_moderate|]. split; vm_compute; reflexivity. Qed.

(** minima and maxima are exact *)
Theorem C80_extremes : forall (funcs : list (crv b64 (option b64))) (x : b64) (ys : list b64), funcs <> [] -> Forall (fun f => ival64 (c_dom f)) funcs -> number64 x ->
  Forall2 (fun f y => i_contains (c_dom f) x = true /\ c_y f x = Ok (Some y)) funcs ys -> ys <> [] -> Forall finite64 ys ->
  (exists r, c_y (curve_min false funcs) x = Ok (Some r) /\ In r ys /\ forall y, In y ys -> (val64 r <= val64 y)%R) /\
  (exists r, c_y (curve_max false funcs) x = Ok (Some r) /\ In r ys /\ forall y, In y ys -> (val64 y <= val64 r)%R).
Proof. exact extremes. Qed.
Print Assumptions C80_extremes.
Example C80_extremes_ex : c_y (curve_min false three64) (b64_ofZ 4) = Ok (bn (-3)) /\ c_y (curve_max false three64) (b64_ofZ 4) = Ok (bn 7).
Proof. split; vm_compute; reflexivity. Qed.

(** two operands commute to the bit, infinities, nan and signed zeros included *)
Theorem C80_commutes : forall (f g : crv b64 (option b64)) (x a b : b64), ival64 (c_dom f) -> ival64 (c_dom g) -> number64 x ->
  i_contains (c_dom f) x = true -> i_contains (c_dom g) x = true -> c_y f x = Ok (Some a) -> c_y g x = Ok (Some b) ->
  valid_binary 53 1024 a = true -> valid_binary 53 1024 b = true ->
  c_y (add_many [f; g]) x = c_y (add_many [g; f]) x /\ c_y (multiply_many [f; g]) x = c_y (multiply_many [g; f]) x.
Proof. exact two_commute. Qed.
Print Assumptions C80_commutes.
Example C80_commutes_ex : ival64 (c_dom (k64 (tenth 1))) /\ valid_binary 53 1024 (tenth 1) = true /\ valid_binary 53 1024 n_inf = true /\
  c_y (add_many [k64 (tenth 1); k64 n_inf]) (b64_ofZ 4) = Ok (Some n_inf).
Proof. split; [split; split; (reflexivity || discriminate)|]. split; [reflexivity|]. split; [reflexivity|vm_compute; reflexivity]. Qed.
Theorem C80_three_refuted : exists a b c : b64, finite64 a /\ finite64 b /\ finite64 c /\
  c_y (add_many [k64 a; k64 b; k64 c]) (b64_ofZ 0) <> c_y (add_many [k64 c; k64 b; k64 a]) (b64_ofZ 0).
Proof. exact (ex_intro _ (tenth 1) (ex_intro _ (tenth 2) (ex_intro _ (tenth 3) (conj (conj eq_refl eq_refl) (conj (conj eq_refl eq_refl) (conj (conj eq_refl eq_refl) order_matters64)))))). Qed.
Print Assumptions C80_three_refuted.
(** f + g - g is not f *)
Theorem C80_cancel_refuted : exists a b : b64, a = b64_ofZ 1 /\ finite64 b /\
  c_y (subtract_many [add_many [k64 a; k64 b]; k64 b]) (b64_ofZ 0) = Ok (Some (b64_ofZ 0)).
Proof. exact (ex_intro _ (b64_ofZ 1) (ex_intro _ (b64_ofZ 10000000000000000) (conj eq_refl (conj (conj eq_refl eq_refl) back_again)))). Qed.
Print Assumptions C80_cancel_refuted.

(** opposites and absolute values are exact, 1 / f is rounded once *)
Theorem C80_inverses : forall (c : crv b64 (option b64)) (x y : b64), c_y c x = Ok (Some y) -> finite64 y ->
  (exists r, c_y (additive_inverse c) x = Ok (Some r) /\ finite64 r /\ val64 r = (- val64 y)%R) /\
  (exists r, c_y (additive_inverse (additive_inverse c)) x = Ok (Some r) /\ r = y) /\
  (exists r, c_y (abs_curve c) x = Ok (Some r) /\ finite64 r /\ val64 r = Rabs (val64 y)) /\
  (val64 y <> 0%R -> (Rabs (/ val64 y) <= bpow radix2 1020)%R ->
     exists r, c_y (multiplicative_inverse c) x = Ok (Some r) /\ finite64 r /\ (Rabs (val64 r - / val64 y) <= Rabs (/ val64 y) * eps + tiny)%R).
Proof. exact inverses. Qed.
Print Assumptions C80_inverses.
Example C80_inverses_ex : c_y (k64 (tenth 1)) (b64_ofZ 4) = Ok (Some (tenth 1)) /\ finite64 (tenth 1) /\ c_y (multiplicative_inverse (k64 (tenth 1))) (b64_ofZ 4) = Ok (bn 10).
Proof. split; [reflexivity|]. split; [split; reflexivity|vm_compute; reflexivity]. Qed.

(** where one operand has no value, no combination has *)
Theorem C80_gap : forall (funcs : list (crv b64 (option b64))) (x : b64) (ys : list (option b64)), funcs <> [] -> Forall (fun f => ival64 (c_dom f)) funcs -> number64 x ->
  Forall2 (fun f y => i_contains (c_dom f) x = true /\ c_y f x = Ok y) funcs ys -> In None ys ->
  c_y (add_many funcs) x = Ok None /\ c_y (subtract_many funcs) x = Ok None /\ c_y (multiply_many funcs) x = Ok None /\ c_y (divide_many funcs) x = Ok None.
Proof. exact gap_none. Qed.
Print Assumptions C80_gap.
Example C80_gap_ex : Forall2 (fun f y => i_contains (c_dom f) (b64_ofZ 4) = true /\ c_y f (b64_ofZ 4) = Ok y) [k64 (b64_ofZ 7); gap64; k64 (b64_ofZ 0)] [bn 7; None; bn 0] /\ In None [bn 7; None; bn 0].
Proof. split; [repeat constructor; vm_compute; reflexivity|right; left; reflexivity]. Qed.

(** a quotient by zero is infinite with the sign of the first operand only:
    0 / 0 and 7 / -0 are inf *)
Theorem C80_by_zero : forall (f g : crv b64 (option b64)) (x a z : b64), ival64 (c_dom f) -> ival64 (c_dom g) -> number64 x -> i_contains (c_dom f) x = true -> i_contains (c_dom g) x = true ->
  c_y f x = Ok (Some a) -> c_y g x = Ok (Some z) -> finite64 a -> finite64 z -> val64 z = 0%R ->
  ((0 <= val64 a)%R -> c_y (divide_many [f; g]) x = Ok (Some n_inf)) /\ ((val64 a < 0)%R -> c_y (divide_many [f; g]) x = Ok (Some n_ninf)).
Proof. exact by_zero. Qed.
Print Assumptions C80_by_zero.
Example C80_by_zero_ex : finite64 (S754_zero true) /\ c_y (divide_many [k64 (b64_ofZ 7); k64 (S754_zero true)]) (b64_ofZ 4) = Ok (Some n_inf) /\
  c_y (divide_many [k64 (b64_ofZ (-7)); k64 (b64_ofZ 0)]) (b64_ofZ 4) = Ok (Some n_ninf) /\ c_y (divide_many [k64 (b64_ofZ 0); k64 (b64_ofZ 0)]) (b64_ofZ 4) = Ok (Some n_inf).
Proof. split; [split; reflexivity|]. split; [|split]; vm_compute; reflexivity. Qed.
