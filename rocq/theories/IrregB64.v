(** Irregular Points in binary64: every stored position is found exactly. *)
From Coq Require Import List ZArith Reals Lia Lra Bool SpecFloat.
From Flocq Require Import Core BinarySingleNaN Plus_error.
From Verif Require Import Base Num Interval Curve Points B64Facts GridFacts StepB64.
Import ListNotations.
Open Scope Z_scope.
#[local] Existing Instances Hprec Hmax Hval Hexp.

(** leftmost position whose x is not below the argument *)
Lemma bisect_loop_at {T} {N : Num T} {V} (l : list (T * V)) x i :
  (forall j p, nth_error l j = Some p -> (j < i)%nat -> n_ltb (fst p) x = true) ->
  (forall j p, nth_error l j = Some p -> (i <= j)%nat -> n_ltb (fst p) x = false) ->
  forall fuel lo hi, 0 <= lo <= Z.of_nat i -> Z.of_nat i <= hi <= Z.of_nat (length l) -> hi - lo < Z.of_nat fuel ->
  bisect_loop fuel l x lo hi = Ok (Z.of_nat i).
Proof.
  intros B A. induction fuel as [|f IH]; intros lo hi L H F; [lia|]. cbn [bisect_loop].
  destruct (Z.ltb_spec lo hi) as [C|C]; [|f_equal; lia].
  pose proof (Z.div_mod (lo + hi) 2 ltac:(lia)) as DM. pose proof (Z.mod_pos_bound (lo + hi) 2 ltac:(lia)) as MB.
  set (mid := (lo + hi) / 2) in *. assert (M : lo <= mid < hi) by lia.
  destruct (nth_error l (Z.to_nat mid)) as [p|] eqn:E; [|apply nth_error_None in E; lia].
  rewrite <- (Z2Nat.id mid) at 1 by lia. rewrite (py_at _ _ p E). cbn [rbind].
  destruct (n_ltb (fst p) x) eqn:Q.
  - apply IH; try lia. split; [lia|]. destruct (Z.le_gt_cases (Z.of_nat i) mid) as [K|K]; [|lia].
    rewrite (A _ p E) in Q by lia. discriminate Q.
  - apply IH; try lia. split; [|lia]. destruct (Z.le_gt_cases (Z.of_nat i) mid) as [K|K]; [lia|].
    rewrite (B _ p E) in Q by lia. discriminate Q.
Qed.

(** finite doubles *)
Definition finite64 (x : b64) : Prop := valid_binary 53 1024 x = true /\ is_finite_SF x = true.
Lemma real_of x : finite64 x -> exists b : bf, x = B2SF b /\ is_finite b = true.
Proof. intros [V F]. exists (SF2B x V). rewrite B2SF_SF2B. split; [reflexivity|]. rewrite is_finite_SF2B. exact F. Qed.

(** increasing positions whose consecutive distances do not overflow *)
Definition increasing64 {V} (l : list (b64 * V)) : Prop :=
  (forall p, In p l -> finite64 (fst p)) /\
  (forall i p q, nth_error l i = Some p -> nth_error l (S i) = Some q -> n_ltb (fst p) (fst q) = true /\ n_isinf (n_sub (fst q) (fst p)) = false) /\
  Z.of_nat (length l) <= 2 ^ 53.
Definition val64 (x : b64) : R := match x with S754_finite s m e => F2R (Float radix2 (cond_Zopp s (Zpos m)) e) | _ => 0%R end.
Lemma val_B2R (b : bf) : val64 (B2SF b) = B2R b. Proof. destruct b; reflexivity. Qed.

Section Irregular.
Context {V : Type} {W : Val b64 V}.
Variable l : list (b64 * V).
Hypothesis INC : increasing64 l.
Lemma ordered j i p q : nth_error l i = Some p -> nth_error l j = Some q -> (i < j)%nat -> (val64 (fst p) < val64 (fst q))%R.
Proof.
  revert q. induction j as [|j IH]; intros q P Q L; [lia|].
  destruct (nth_error l j) as [r|] eqn:E; [|apply nth_error_None in E; assert (S j < length l)%nat by (apply nth_error_Some; congruence); lia].
  destruct INC as (FI & ST & _). destruct (ST j r q E Q) as [LT _].
  destruct (real_of _ (FI r (nth_error_In _ _ E))) as (rb & ER & FR). destruct (real_of _ (FI q (nth_error_In _ _ Q))) as (qb & EQ & FQ).
  rewrite ER, EQ in LT. cbn [n_ltb B64] in LT. rewrite ltb_val in LT by assumption. destruct (Rlt_bool_spec (B2R rb) (B2R qb)) as [LT'|]; [|discriminate].
  rewrite EQ, val_B2R. destruct (Nat.eq_dec i j) as [->|N].
  - rewrite E in P. injection P as ->. rewrite ER, val_B2R. exact LT'.
  - specialize (IH r P eq_refl ltac:(lia)). rewrite ER, val_B2R in IH. lra.
Qed.
Lemma ltb64 p q : In p l -> In q l -> n_ltb (fst p) (fst q) = Rlt_bool (val64 (fst p)) (val64 (fst q)).
Proof.
  destruct INC as (FI & _). intros P Q. destruct (real_of _ (FI p P)) as (pb & EP & FP). destruct (real_of _ (FI q Q)) as (qb & EQ & FQ).
  rewrite EP, EQ, !val_B2R. apply ltb_val; assumption.
Qed.
Lemma eqb64 p q : In p l -> In q l -> n_eqb (fst p) (fst q) = Req_bool (val64 (fst p)) (val64 (fst q)).
Proof.
  destruct INC as (FI & _). intros P Q. destruct (real_of _ (FI p P)) as (pb & EP & FP). destruct (real_of _ (FI q Q)) as (qb & EQ & FQ).
  rewrite EP, EQ, !val_B2R. apply eqb_val; assumption.
Qed.
Lemma bisect_at i p : nth_error l i = Some p -> bisect_points l (fst p) = Ok (Z.of_nat i).
Proof.
  intros E. assert (L : (i < length l)%nat) by (apply nth_error_Some; congruence). unfold bisect_points. apply bisect_loop_at; try lia.
  - intros j q Q J. rewrite ltb64 by (eapply nth_error_In; eassumption). apply Rlt_bool_true. eapply ordered; eassumption.
  - intros j q Q J. rewrite ltb64 by (eapply nth_error_In; eassumption). apply Rlt_bool_false. destruct (Nat.eq_dec i j) as [->|N]; [replace q with p by congruence; apply Rle_refl|].
    left. apply (ordered j i); try assumption. lia.
Qed.
(** a difference of neighbours, divided by itself, is exactly one *)
Lemma self_ratio i p q : nth_error l i = Some p -> nth_error l (S i) = Some q -> n_div (n_sub (fst q) (fst p)) (n_sub (fst q) (fst p)) = Ok (fnum 1 0).
Proof.
  intros P Q. pose proof (ordered (S i) i p q P Q ltac:(lia)) as LT. destruct INC as (FI & ST & _). destruct (ST i p q P Q) as [_ NI].
  destruct (real_of _ (FI p (nth_error_In _ _ P))) as (pb & EP & FP). destruct (real_of _ (FI q (nth_error_In _ _ Q))) as (qb & EQ & FQ).
  rewrite EP, EQ in *. rewrite !val_B2R in LT. change (@n_sub b64 B64) with (SFsub 53 1024) in *. rewrite sub_eq in *.
  pose proof (Bminus_correct 53 1024 Hprec Hmax mode_NE qb pb FQ FP) as H. change (SpecFloat.fexp 53 1024) with (FLT_exp (-1074) 53) in H.
  destruct (Rlt_bool _ _) in H.
  - destruct H as (H1 & H2 & H3). set (z := Bminus mode_NE qb pb) in *.
    assert (NZ : B2R z <> 0%R).
    { rewrite H1. unfold Rminus. apply round_plus_neq_0; auto with typeclass_instances; [apply generic_format_B2R|apply generic_format_opp, generic_format_B2R|lra]. }
    pose proof (Bdiv_correct 53 1024 Hprec Hmax mode_NE z z NZ) as K. change (SpecFloat.fexp 53 1024) with (FLT_exp (-1074) 53) in K.
    assert (R1 : (B2R z / B2R z = dy 1 0)%R) by (rewrite dy0; field; exact NZ).
    assert (F1 : fits 1 0) by (split; [cbn; lia|lia]).
    rewrite R1, round_dy in K by assumption. rewrite Rlt_bool_true in K by (apply small_dy; exact F1). destruct K as (K1 & K2 & K3).
    assert (E : n_div (B2SF z) (B2SF z) = Ok (B2SF (Bdiv mode_NE z z))).
    { rewrite <- div_eq. destruct z; try reflexivity. exfalso. apply NZ. reflexivity. }
    etransitivity; [exact E|]. f_equal. apply bnum_unique; try assumption; [rewrite K2; exact H2|].
    rewrite K3; [destruct (Bsign z); reflexivity|]. rewrite H2 in K2. destruct (Bdiv mode_NE z z); try discriminate K2; reflexivity.
  - destruct H as [H _]. rewrite H in NI. cbn in NI. discriminate NI.
Qed.
Lemma irregular_y s i p : p_pts s = l -> p_uniform s = false -> p_dom s = pts_domain l -> nth_error l i = Some p -> p_y s (fst p) = Ok (snd p).
Proof.
  intros PS U D E. assert (L : (i < length l)%nat) by (apply nth_error_Some; congruence).
  destruct INC as (_ & _ & LN).
  assert (XI : x_index s (fst p) = Ok (fnum (Z.of_nat i) 0)).
  { unfold x_index. rewrite U, PS, (bisect_at i p E). cbn [rbind]. destruct i as [|i].
    - reflexivity.
    - replace (Z.of_nat (S i) - 1) with (Z.of_nat i) by lia. destruct (Z.ltb_spec (Z.of_nat i) 0); [lia|].
      destruct (Z.leb_spec (Z.of_nat (length l)) (Z.of_nat (S i))); [lia|].
      destruct (nth_error l i) as [r|] eqn:ER; [|apply nth_error_None in ER; lia].
      rewrite (py_at _ _ _ ER), (py_at _ _ _ E). cbn [rbind]. rewrite (self_ratio i r p ER E). cbn [rbind]. f_equal.
      change (n_ofZ (Z.of_nat i)) with (fnum (Z.of_nat i) 0). cbn [n_add B64]. rewrite fnum_add; [f_equal; lia|split; lia|split; [cbn; lia|lia]|split; lia|lia]. }
  assert (C : i_contains (p_dom s) (fst p) = true).
  { rewrite D. unfold pts_domain. destruct l as [|z r] eqn:EL; [destruct i; discriminate E|]. rewrite <- EL in *. replace (head_opt l) with (Some z) by (rewrite EL; reflexivity).
    rewrite (last_at l (length r)) by (rewrite EL; reflexivity). destruct (nth_error l (length r)) as [w|] eqn:EW; [|apply nth_error_None in EW; rewrite EL in EW; cbn in EW; lia].
    assert (E0 : nth_error l 0 = Some z) by (rewrite EL; reflexivity). assert (LR : length l = S (length r)) by (rewrite EL; reflexivity).
    assert (Lz : (val64 (fst z) <= val64 (fst p))%R).
    { destruct (Nat.eq_dec i 0) as [->|N]; [rewrite E in E0; injection E0 as ->; lra|]. left. apply (ordered i 0); try assumption. lia. }
    assert (Lw : (val64 (fst p) <= val64 (fst w))%R).
    { destruct (Nat.eq_dec i (length r)) as [->|N]; [rewrite E in EW; injection EW as ->; lra|]. left. apply (ordered (length r) i); try assumption. lia. }
    unfold i_contains, i_contains_gen, i_is_empty, above_start, below_end. cbn [i_start i_end i_so i_eo]. unfold n_gtb.
    rewrite !ltb64, !eqb64 by (eapply nth_error_In; eassumption). rewrite andb_false_r. rewrite (Rlt_bool_false (val64 (fst w))) by lra. cbn [negb orb andb].
    destruct (Rlt_bool_spec (val64 (fst z)) (val64 (fst p))), (Req_bool_spec (val64 (fst z)) (val64 (fst p))),
      (Rlt_bool_spec (val64 (fst p)) (val64 (fst w))), (Req_bool_spec (val64 (fst p)) (val64 (fst w))); cbn; try reflexivity; lra. }
  unfold p_y. rewrite C. cbn [negb]. rewrite XI. cbn [rbind].
  assert (F : fits (Z.of_nat i) 0) by (split; lia). rewrite whole_mod1, whole_trunc by (try assumption; lia). cbn [rbind].
  change (n_eqb (S754_zero false) n_zero) with true. cbn iota. rewrite PS, (py_at _ _ _ E). reflexivity.
Qed.
(** the constructor without [uniform] accepts the list and stores it unchanged *)
Lemma irregular_init ip : snd (p_init l ip false) = Ok tt /\ p_pts (fst (fst (p_init l ip false))) = l /\
  p_dom (fst (fst (p_init l ip false))) = pts_domain l /\ p_force (fst (fst (p_init l ip false))) = false.
Proof.
  assert (EQ : forall l0 : list (b64 * V), exists b, points_equally_spaced None [] l0 = Ok b).
  { intros [|p0 [|p1 r]]; [eexists; reflexivity|eexists; reflexivity|].
    unfold points_equally_spaced. cbn [length Nat.eqb Nat.ltb Nat.add Nat.leb orb negb].
    rewrite (py_at0 _ p0) by reflexivity. cbn [rbind]. rewrite (py_at1 _ p1) by reflexivity. cbn [rbind].
    destruct (nth_error (p0 :: p1 :: r) (S (length r))) as [z|] eqn:E; [|apply nth_error_None in E; cbn in E; lia].
    rewrite (py_at_last _ (S (length r)) z) by (try exact E; reflexivity). cbn [rbind]. eexists. reflexivity. }
  assert (SP : exists o, span_interval l = Ok o).
  { destruct INC as (_ & _ & LN). destruct l as [|p0 [|p1 r]]; [eexists; reflexivity|eexists; reflexivity|]. unfold span_interval.
    destruct (last_opt _) as [z|]; [|eexists; reflexivity]. replace (Z.of_nat (length (p0 :: p1 :: r)) - 1) with (Z.of_nat (S (length r))) by (cbn [length]; lia).
    change (n_ofZ (Z.of_nat (S (length r)))) with (fnum (Z.of_nat (S (length r))) 0). cbn [length] in LN. rewrite nonzero_div by (try split; lia). cbn [rbind]. eexists. reflexivity. }
  destruct (EQ l) as [b EB]. destruct SP as [o ES].
  unfold p_init, p_set, p_empty. cbn [p_touch p_force]. destruct l as [|p0 r] eqn:EL.
  - vm_compute. auto.
  - rewrite <- EL in *. replace (head_opt l) with (Some p0) by (rewrite EL; reflexivity).
    rewrite (last_at l (length r)) by (rewrite EL; reflexivity). destruct (nth_error l (length r)) as [w|] eqn:EW; [|apply nth_error_None in EW; rewrite EL in EW; cbn in EW; lia].
    assert (E0 : nth_error l 0 = Some p0) by (rewrite EL; reflexivity).
    assert (LE : (val64 (fst p0) <= val64 (fst w))%R).
    { destruct (length r) as [|k] eqn:EK; [rewrite EW in E0; injection E0 as ->; lra|]. left. apply (ordered (S k) 0); try assumption. lia. }
    assert (SI : sound_ival (mkI (fst p0) (fst w) false false)).
    { unfold sound_ival, i_is_empty. cbn [i_start i_end i_so i_eo]. unfold n_gtb. rewrite !ltb64, !eqb64 by (eapply nth_error_In; eassumption).
      rewrite andb_false_r, Rlt_bool_false, !Req_bool_true by (try assumption; reflexivity). auto. }
    set (d := mkI (fst p0) (fst w) false false) in *. destruct (bracket (Some i_empty) d SI) as [B1 B2].
    change (i_closed (fst p0) (fst w)) with d.
    assert (UD : i_union2 (p_dom (p_touch (mkP (@nil (b64 * V)) None false false ip upd_init))) d = d) by (destruct SI as (SI & _); unfold i_union2; cbn -[i_is_empty]; rewrite SI; reflexivity).
    rewrite UD. unfold p_begin. change (p_upd (p_touch (mkP (@nil (b64 * V)) None false false ip upd_init))) with (mkU (@i_empty b64 B64) i_empty (Some i_empty)). rewrite B1.
    cbn [p_int set_upd p_touch]. rewrite EB. cbn [p_force set_eq set_upd p_touch andb]. unfold p_finish. rewrite ES. unfold p_end.
    cbn [p_upd set_int set_pts set_eq set_upd]. rewrite B2. cbn. auto.
Qed.
End Irregular.
