(** Facts about Power.v over exact positions. *)
From Coq Require Import List Reals ZArith Bool Lra Lia.
From Verif Require Import Base Num NumFacts Interval IntervalFacts Curve Combine CombineFacts Power.
Import ListNotations.
Open Scope R_scope.

Notation rcrv := (crv xq (option R)).

Lemma int_part_IZR n : Int_part (IZR n) = n.
Proof.
  destruct (base_Int_part (IZR n)) as [A B]. apply le_IZR in A. rewrite <- minus_IZR in B. apply Rgt_lt, (lt_IZR (-1)) in B. lia.
Qed.
Lemma whole_iff b : whole b = true <-> exists n, b = IZR n.
Proof.
  unfold whole. destruct (Req_EM_T b (IZR (Int_part b))) as [E|E]; split; intros H; try discriminate; eauto.
  destruct H as [n ->]. exfalso. apply E. rewrite int_part_IZR. reflexivity.
Qed.
Lemma pow_positive cx a b : 0 < a -> py_pow cx a b = Ok (Rpower a b).
Proof.
  intros H. unfold py_pow. destruct (Req_EM_T a 0) as [E0|E0]; [lra|]. destruct (whole b) eqn:W.
  - apply whole_iff in W. destruct W as [n ->]. rewrite int_part_IZR, <- powerRZ_Rpower by assumption. reflexivity.
  - destruct (Rlt_dec 0 a); [reflexivity|lra].
Qed.
Lemma pow_nat cx a n : py_pow cx a (INR n) = Ok (Rpow_def.pow a n).
Proof.
  unfold py_pow. rewrite INR_IZR_INZ. assert (W : whole (IZR (Z.of_nat n)) = true) by (apply whole_iff; eauto).
  rewrite W, int_part_IZR. destruct (Req_EM_T a 0) as [->|NE].
  - destruct (Req_EM_T (IZR (Z.of_nat n)) 0) as [E|E].
    + apply (eq_IZR _ 0) in E. destruct n; [reflexivity|lia].
    + destruct n; [exfalso; apply E; reflexivity|]. destruct (Rlt_dec (IZR (Z.of_nat (S n))) 0) as [L|L].
      * apply lt_IZR in L. lia.
      * rewrite pow_i by lia. reflexivity.
  - rewrite <- pow_powerRZ. reflexivity.
Qed.
Lemma pow_neg cx a n : (0 < n)%nat -> py_pow cx a (- INR n) = if Req_EM_T a 0 then Err EZeroDiv else Ok (/ Rpow_def.pow a n).
Proof.
  intros P. unfold py_pow. assert (0 < INR n) by (apply lt_0_INR; assumption).
  assert (W : whole (- INR n) = true). { apply whole_iff. exists (- Z.of_nat n)%Z. rewrite opp_IZR, <- INR_IZR_INZ. reflexivity. }
  rewrite W. assert (I : Int_part (- INR n) = (- Z.of_nat n)%Z).
  { rewrite INR_IZR_INZ, <- opp_IZR. apply int_part_IZR. }
  destruct (Req_EM_T a 0) as [->|NE].
  - destruct (Req_EM_T (- INR n) 0); [lra|]. destruct (Rlt_dec (- INR n) 0); [reflexivity|lra].
  - rewrite I. rewrite powerRZ_neg'. rewrite <- pow_powerRZ. reflexivity.
Qed.
Lemma ln_not0 b : 0 < b -> b <> 1 -> ln b <> 0.
Proof. intros P N E. apply N. apply ln_inv; [assumption|lra|]. rewrite ln_1. assumption. Qed.
Lemma log_ok a b : 0 < a -> 0 < b -> b <> 1 -> py_log a b = Ok (ln a / ln b).
Proof.
  intros P Q N. unfold py_log. destruct (Rlt_dec 0 a); [|lra]. destruct (Rlt_dec 0 b); [|lra].
  destruct (Req_EM_T (ln b) 0) as [E|E]; [|reflexivity]. exfalso. exact (ln_not0 b Q N E).
Qed.
Lemma power_log a b : 0 < a -> 0 < b -> b <> 1 -> Rpower b (ln a / ln b) = a.
Proof.
  intros P Q N. unfold Rpower. replace (ln a / ln b * ln b) with (ln a).
  - apply exp_ln. assumption.
  - field. apply ln_not0; assumption.
Qed.

(** [f] answers [v] at [x], a position inside its domain *)
Definition answers (f : rcrv) (x : xq) (v : option R) : Prop := iok (c_dom f) /\ imem (c_dom f) x /\ c_y f x = Ok v.

Lemma iok_infinite : iok (@i_infinite xq _). Proof. vm_compute. repeat split; discriminate || reflexivity. Qed.
Lemma number_answers b x : x <> PInf -> x <> NInf -> notnan x -> answers (number b) x (Some b).
Proof.
  intros A B C. split; [exact iok_infinite|]. split; [|reflexivity].
  destruct x; try congruence; try contradiction. cbn. apply (proj1 (contains_iff i_infinite _ iok_infinite C)). reflexivity.
Qed.

Local Ltac fa := repeat (first [apply Forall_cons | apply Forall2_cons]; [assumption|]); constructor.
Lemma two_in {W} (d : W) t (f g : rcrv) x u v : notnan x -> answers f x u -> answers g x v ->
  c_y (aggregate false d t [f; g]) x = t x [u; v] /\ iok (agg_dom false [f; g]) /\ imem (agg_dom false [f; g]) x.
Proof.
  intros NX (O1 & M1 & Y1) (O2 & M2 & Y2).
  assert (D : doms_ok [f; g]) by fa.
  assert (M : imem (agg_dom false [f; g]) x). { apply agg_inter_iff; [discriminate|assumption|assumption|]. fa. }
  split; [|split; [apply agg_dom_ok; assumption|assumption]].
  apply agg_y_in; [assumption|assumption|assumption|]. fa.
Qed.
Lemma two_out {W} (d : W) t (f g : rcrv) x : notnan x -> iok (c_dom f) -> iok (c_dom g) ->
  ~ (imem (c_dom f) x /\ imem (c_dom g) x) -> c_y (aggregate false d t [f; g]) x = Ok d.
Proof.
  intros NX O1 O2 H. assert (D : doms_ok [f; g]) by fa.
  apply agg_y_out; [assumption|assumption|]. intros M. apply H. apply agg_inter_iff in M; [|discriminate|assumption|assumption].
  inversion M as [|? ? A B]; subst. inversion B; subst. auto.
Qed.
Definition finite (x : xq) : Prop := match x with Fin _ => True | _ => False end.
Lemma fin_nn x : finite x -> notnan x. Proof. destruct x; intros H; try contradiction H; exact I || discriminate || reflexivity. Qed.
Lemma number_fin b x : finite x -> answers (number b) x (Some b).
Proof. intros H. apply number_answers; destruct x; try contradiction; try discriminate; exact I. Qed.

Section Top.
Variable cx : R -> R -> res R.

Lemma log_answers f x v b : finite x -> answers f x (Some v) -> 0 < v -> 0 < b -> b <> 1 ->
  answers (log f b) x (Some (ln v / ln b)).
Proof.
  intros F A P Q N. destruct (two_in None (fun _ ys => op_loop py_log true 0 ys) _ _ x _ _ (fin_nn x F) A (number_fin b x F)) as (E & O & M).
  split; [exact O|]. split; [exact M|]. etransitivity; [exact E|]. cbn. rewrite log_ok by assumption. reflexivity.
Qed.
Lemma raised_answers f x v b : finite x -> answers f x (Some v) -> 0 < b -> answers (raised cx f b) x (Some (Rpower b v)).
Proof.
  intros F A Q. destruct (two_in None (fun _ ys => op_loop (py_pow cx) true 0 ys) _ _ x _ _ (fin_nn x F) (number_fin b x F) A) as (E & O & M).
  split; [exact O|]. split; [exact M|]. etransitivity; [exact E|]. cbn. rewrite pow_positive by assumption. reflexivity.
Qed.

Lemma log_value f x v b : finite x -> answers f x (Some v) -> 0 < v -> 0 < b -> b <> 1 ->
  exists r, c_y (log f b) x = Ok (Some r) /\ Rpower b r = v /\ forall r', Rpower b r' = v -> r' = r.
Proof.
  intros F A P Q N. exists (ln v / ln b). split; [apply log_answers; assumption|]. split; [apply power_log; assumption|].
  intros r' <-. unfold Rpower. rewrite ln_exp. field. apply ln_not0; assumption.
Qed.
Lemma log_raised f x v b : finite x -> answers f x (Some v) -> 0 < v -> 0 < b -> b <> 1 ->
  c_y (raised cx (log f b) b) x = Ok (Some v).
Proof.
  intros F A P Q N. pose proof (log_answers f x v b F A P Q N) as L.
  destruct (raised_answers _ x _ b F L Q) as (_ & _ & ->). rewrite power_log by assumption. reflexivity.
Qed.
Lemma raised_log f x v b : finite x -> answers f x (Some v) -> 0 < b -> b <> 1 ->
  c_y (log (raised cx f b) b) x = Ok (Some v).
Proof.
  intros F A Q N. pose proof (raised_answers f x v b F A Q) as L.
  assert (P : 0 < Rpower b v) by apply exp_pos.
  destruct (log_answers _ x _ b F L P Q N) as (_ & _ & ->). do 2 f_equal. unfold Rpower. rewrite ln_exp. field. apply ln_not0; assumption.
Qed.
Lemma log_order f g x v w b : finite x -> answers f x (Some v) -> answers g x (Some w) -> 0 < v -> 1 < b -> v < w ->
  exists r s, c_y (log f b) x = Ok (Some r) /\ c_y (log g b) x = Ok (Some s) /\ r < s.
Proof.
  intros F A B P Q L. assert (Q0 : 0 < b) by lra. assert (N : b <> 1) by lra. assert (P' : 0 < w) by lra.
  exists (ln v / ln b), (ln w / ln b). split; [apply log_answers; assumption|]. split; [apply log_answers; assumption|].
  apply Rmult_lt_compat_r; [apply Rinv_0_lt_compat; rewrite <- ln_1; apply ln_increasing; lra|]. apply ln_increasing; assumption.
Qed.
Lemma log_raises f x v b : finite x -> answers f x (Some v) ->
  (v <= 0 \/ b <= 0 -> c_y (log f b) x = Err EValue) /\ (0 < v -> b = 1 -> c_y (log f b) x = Err EZeroDiv).
Proof.
  intros F A. destruct (two_in None (fun _ ys => op_loop py_log true 0 ys) _ _ x _ _ (fin_nn x F) A (number_fin b x F)) as (E & _).
  change (c_y (log f b) x = op_loop py_log true 0 [Some v; Some b]) in E. rewrite E. cbn. unfold py_log. split.
  - intros H. destruct (Rlt_dec 0 v); [|reflexivity]. destruct (Rlt_dec 0 b); [lra|reflexivity].
  - intros P ->. destruct (Rlt_dec 0 v); [|lra]. destruct (Rlt_dec 0 1); [|lra]. rewrite ln_1. destruct (Req_EM_T 0 0); [reflexivity|lra].
Qed.

Lemma pow_y f g x v w : finite x -> answers f x (Some v) -> answers g x (Some w) ->
  c_y (pow cx f g) x = rmap Some (py_pow cx v w).
Proof.
  intros F A B. destruct (two_in None (fun _ ys => op_loop (py_pow cx) true 0 ys) _ _ x _ _ (fin_nn x F) A B) as (E & _).
  etransitivity; [exact E|]. cbn. destruct (py_pow cx v w); reflexivity.
Qed.
Lemma pow_real f g x v w : finite x -> answers f x (Some v) -> answers g x (Some w) -> 0 < v ->
  c_y (pow cx f g) x = Ok (Some (Rpower v w)).
Proof. intros F A B P. rewrite (pow_y f g x v w F A B), pow_positive by assumption. reflexivity. Qed.
Lemma pow_whole f x v n : finite x -> answers f x (Some v) ->
  c_y (pow cx f (number (INR n))) x = Ok (Some (Rpow_def.pow v n)).
Proof. intros F A. rewrite (pow_y f _ x v (INR n) F A (number_fin _ _ F)), pow_nat. reflexivity. Qed.
Lemma pow_negative f x v n : finite x -> answers f x (Some v) -> (0 < n)%nat ->
  (v <> 0 -> c_y (pow cx f (number (- INR n))) x = Ok (Some (/ Rpow_def.pow v n))) /\ (v = 0 -> c_y (pow cx f (number (- INR n))) x = Err EZeroDiv).
Proof.
  intros F A P. rewrite (pow_y f _ x v _ F A (number_fin _ _ F)), pow_neg by assumption.
  destruct (Req_EM_T v 0); split; intros H; try contradiction; reflexivity.
Qed.
Lemma pow_none f g x : finite x -> (answers f x None /\ (exists v, answers g x v) \/ (exists v, answers f x (Some v)) /\ answers g x None) ->
  c_y (pow cx f g) x = Ok None /\ c_y (log_many [f; g]) x = Ok None.
Proof.
  intros F H. assert (exists u v, answers f x u /\ answers g x v /\ forall op, op_loop op true 0 [u; v] = Ok None) as (u & v & A & B & E).
  { destruct H as [(A & v & B)|((v & A) & B)]; do 2 eexists; (split; [exact A|]); (split; [exact B|]); reflexivity. }
  split; [destruct (two_in None (fun _ ys => op_loop (py_pow cx) true 0 ys) _ _ x _ _ (fin_nn x F) A B) as (X & _)
         |destruct (two_in None (fun _ ys => op_loop py_log true 0 ys) _ _ x _ _ (fin_nn x F) A B) as (X & _)];
  (etransitivity; [exact X|]); apply E.
Qed.
Lemma pow_out f g x : notnan x -> iok (c_dom f) -> iok (c_dom g) -> ~ (imem (c_dom f) x /\ imem (c_dom g) x) ->
  c_y (pow cx f g) x = Ok None /\ c_y (log_many [f; g]) x = Ok None.
Proof. intros. split; apply two_out; assumption. Qed.

(** several operands: from left to right *)
Fixpoint left_power (a : R) (l : list R) : R := match l with [] => a | b :: l' => left_power (Rpower a b) l' end.
Lemma left_product a l : 0 < a -> left_power a l = Rpower a (fold_right Rmult 1 l).
Proof.
  revert a. induction l as [|b l IH]; intros a P; cbn. { symmetry. apply Rpower_1. assumption. }
  rewrite IH by apply exp_pos. apply Rpower_mult.
Qed.
Lemma loop_power a l : 0 < a -> op_loop (py_pow cx) false a (map Some l) = Ok (Some (left_power a l)).
Proof.
  revert a. induction l as [|b l IH]; intros a P; [reflexivity|]. cbn. rewrite pow_positive by assumption. cbn. apply IH, exp_pos.
Qed.
Lemma pow_chain f gs x v ws : finite x -> answers f x (Some v) -> Forall2 (fun g w => answers g x (Some w)) gs ws -> 0 < v ->
  c_y (pow_many cx (f :: gs)) x = Ok (Some (Rpower v (fold_right Rmult 1 ws))).
Proof.
  intros F A B P.
  assert (D : doms_ok (f :: gs)). { constructor; [apply A|]. clear - B. induction B; constructor; [apply H|assumption]. }
  assert (E : evals (f :: gs) x (Some v :: map Some ws)).
  { constructor; [apply A|]. clear - B. induction B; constructor; [apply H|assumption]. }
  assert (M : imem (agg_dom false (f :: gs)) x).
  { apply agg_inter_iff; [discriminate|assumption|apply fin_nn; assumption|]. constructor; [apply A|]. clear - B. induction B; constructor; [apply H|assumption]. }
  unfold pow_many. rewrite (agg_y_in _ _ _ _ _ _ D (fin_nn x F) M E). cbn [op_loop].
  rewrite loop_power, left_product by assumption. reflexivity.
Qed.
End Top.
