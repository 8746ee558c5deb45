(** Facts and automation about the exact number instance [XQ]. *)
From Coq Require Import List ZArith QArith Qround Qcanon Bool Lia Lqa.
From Verif Require Import Base Num.
Import ListNotations.

Lemma Qc_eq_iff (x y : Qc) : x = y <-> (this x == this y)%Q.
Proof. split; [now intros -> | apply Qc_is_canon]. Qed.

Lemma this_Q2Qc q : (this (Q2Qc q) == q)%Q.
Proof. apply Qred_correct. Qed.
Lemma this_add a b : (this (a + b)%Qc == this a + this b)%Q.
Proof. apply Qred_correct. Qed.
Lemma this_opp a : (this (- a)%Qc == - this a)%Q.
Proof. apply Qred_correct. Qed.
Lemma this_sub a b : (this (a - b)%Qc == this a - this b)%Q.
Proof. unfold Qcminus. rewrite this_add, this_opp. ring. Qed.
Lemma this_mul a b : (this (a * b)%Qc == this a * this b)%Q.
Proof. apply Qred_correct. Qed.
Lemma this_inv a : (this (/ a)%Qc == / this a)%Q.
Proof. apply Qred_correct. Qed.
Lemma this_div a b : (this (a / b)%Qc == this a / this b)%Q.
Proof. unfold Qcdiv. rewrite this_mul, this_inv. reflexivity. Qed.
Lemma this_ofZ z : (this (QcofZ z) == inject_Z z)%Q.
Proof. apply Qred_correct. Qed.
Lemma this_0 : (this 0%Qc == 0)%Q. Proof. reflexivity. Qed.
Lemma this_1 : (this 1%Qc == 1)%Q. Proof. reflexivity. Qed.

(** Turn a goal about [Qc] into one about [Q], introducing for every compound
    term the defining equation of its value. *)
Ltac qc_toQ :=
  repeat match goal with
  | H : ~ (@eq Qc ?x ?y) |- _ =>
      let H' := fresh in
      assert (H' : ~ (this x == this y)%Q) by (rewrite <- Qc_eq_iff; exact H);
      clear H
  | H : @eq Qc ?x ?y |- _ => apply (proj1 (Qc_eq_iff x y)) in H
  | |- @eq Qc ?x ?y => apply (proj2 (Qc_eq_iff x y))
  | |- ~ (@eq Qc ?x ?y) => rewrite (Qc_eq_iff x y)
  end;
  unfold Qclt, Qcle in *;
  repeat match goal with
  | |- context [this (?a + ?b)%Qc] =>
      let v := fresh "v" in let H := fresh "Hv" in
      pose proof (this_add a b) as H; set (v := this (a + b)%Qc) in *; clearbody v
  | H0 : context [this (?a + ?b)%Qc] |- _ =>
      let v := fresh "v" in let H := fresh "Hv" in
      pose proof (this_add a b) as H; set (v := this (a + b)%Qc) in *; clearbody v
  | |- context [this (?a - ?b)%Qc] =>
      let v := fresh "v" in let H := fresh "Hv" in
      pose proof (this_sub a b) as H; set (v := this (a - b)%Qc) in *; clearbody v
  | H0 : context [this (?a - ?b)%Qc] |- _ =>
      let v := fresh "v" in let H := fresh "Hv" in
      pose proof (this_sub a b) as H; set (v := this (a - b)%Qc) in *; clearbody v
  | |- context [this (?a / ?b)%Qc] =>
      let v := fresh "v" in let H := fresh "Hv" in
      pose proof (this_div a b) as H; set (v := this (a / b)%Qc) in *; clearbody v
  | H0 : context [this (?a / ?b)%Qc] |- _ =>
      let v := fresh "v" in let H := fresh "Hv" in
      pose proof (this_div a b) as H; set (v := this (a / b)%Qc) in *; clearbody v
  | |- context [this (?a * ?b)%Qc] =>
      let v := fresh "v" in let H := fresh "Hv" in
      pose proof (this_mul a b) as H; set (v := this (a * b)%Qc) in *; clearbody v
  | H0 : context [this (?a * ?b)%Qc] |- _ =>
      let v := fresh "v" in let H := fresh "Hv" in
      pose proof (this_mul a b) as H; set (v := this (a * b)%Qc) in *; clearbody v
  | |- context [this (- ?a)%Qc] =>
      let v := fresh "v" in let H := fresh "Hv" in
      pose proof (this_opp a) as H; set (v := this (- a)%Qc) in *; clearbody v
  | H0 : context [this (- ?a)%Qc] |- _ =>
      let v := fresh "v" in let H := fresh "Hv" in
      pose proof (this_opp a) as H; set (v := this (- a)%Qc) in *; clearbody v
  | |- context [this (/ ?a)%Qc] =>
      let v := fresh "v" in let H := fresh "Hv" in
      pose proof (this_inv a) as H; set (v := this (/ a)%Qc) in *; clearbody v
  | H0 : context [this (/ ?a)%Qc] |- _ =>
      let v := fresh "v" in let H := fresh "Hv" in
      pose proof (this_inv a) as H; set (v := this (/ a)%Qc) in *; clearbody v
  | |- context [this (QcofZ ?a)] =>
      let v := fresh "v" in let H := fresh "Hv" in
      pose proof (this_ofZ a) as H; set (v := this (QcofZ a)) in *; clearbody v
  | H0 : context [this (QcofZ ?a)] |- _ =>
      let v := fresh "v" in let H := fresh "Hv" in
      pose proof (this_ofZ a) as H; set (v := this (QcofZ a)) in *; clearbody v
  | |- context [this (Q2Qc ?a)] =>
      let v := fresh "v" in let H := fresh "Hv" in
      pose proof (this_Q2Qc a) as H; set (v := this (Q2Qc a)) in *; clearbody v
  | H0 : context [this (Q2Qc ?a)] |- _ =>
      let v := fresh "v" in let H := fresh "Hv" in
      pose proof (this_Q2Qc a) as H; set (v := this (Q2Qc a)) in *; clearbody v
  end.

(** Substitute the value of numeric literals. *)
Ltac qc_subst :=
  repeat match goal with
  | H : (?v == ?n # ?d)%Q |- _ => is_var v; rewrite H in *; clear H v
  | H : (?v == inject_Z ?z)%Q |- _ =>
      is_var v; first [ match z with Z0 => idtac | Zpos _ => idtac | Zneg _ => idtac end ];
      unfold inject_Z in H; rewrite H in *; clear H v
  end.

Ltac qc_lra := qc_toQ; qc_subst; try lra.
Ltac qc_nra := qc_toQ; qc_subst; try nra.

(** ** Boolean comparisons on Qc *)
Lemma Qcleb_true a b : Qcleb a b = true <-> (a <= b)%Qc.
Proof. unfold Qcleb, Qcle. apply Qle_bool_iff. Qed.
Lemma Qcltb_true a b : Qcltb a b = true <-> (a < b)%Qc.
Proof.
  unfold Qcltb, Qclt. rewrite negb_true_iff. split; intro H.
  - apply Qnot_le_lt. intro L. apply Qle_bool_iff in L. congruence.
  - destruct (Qle_bool b a) eqn:E; auto. apply Qle_bool_iff in E.
    exfalso. apply (Qlt_not_le _ _ H). exact E.
Qed.
Lemma Qceqb_true a b : Qceqb a b = true <-> a = b.
Proof. unfold Qceqb. rewrite Qc_eq_iff. apply Qeq_bool_iff. Qed.
Lemma Qcleb_false a b : Qcleb a b = false <-> (b < a)%Qc.
Proof.
  rewrite <- Qcltb_true. unfold Qcltb, Qcleb.
  destruct (Qle_bool a b); simpl; split; congruence.
Qed.
Lemma Qcltb_false a b : Qcltb a b = false <-> (b <= a)%Qc.
Proof.
  rewrite <- Qcleb_true. unfold Qcltb, Qcleb.
  destruct (Qle_bool b a); simpl; split; congruence.
Qed.
Lemma Qceqb_false a b : Qceqb a b = false <-> a <> b.
Proof.
  rewrite <- Qceqb_true. destruct (Qceqb a b); split; congruence.
Qed.
Lemma Qceqb_refl a : Qceqb a a = true.
Proof. now apply Qceqb_true. Qed.

(** Destruct boolean comparisons on Qc into order facts. *)
Ltac qb_simpl :=
  repeat match goal with
  | H : Qcleb _ _ = true |- _ => apply Qcleb_true in H
  | H : Qcleb _ _ = false |- _ => apply Qcleb_false in H
  | H : Qcltb _ _ = true |- _ => apply Qcltb_true in H
  | H : Qcltb _ _ = false |- _ => apply Qcltb_false in H
  | H : Qceqb _ _ = true |- _ => apply Qceqb_true in H
  | H : Qceqb _ _ = false |- _ => apply Qceqb_false in H
  end.

Ltac qb_case :=
  match goal with
  | |- context [Qcleb ?a ?b] => destruct (Qcleb a b) eqn:?
  | |- context [Qcltb ?a ?b] => destruct (Qcltb a b) eqn:?
  | |- context [Qceqb ?a ?b] => destruct (Qceqb a b) eqn:?
  end; qb_simpl.

(** ** floor / ceiling *)
Lemma inject_Z_lt a b : (inject_Z a < inject_Z b)%Q <-> (a < b)%Z.
Proof. rewrite <- Zlt_Qlt. reflexivity. Qed.
Lemma inject_Z_le a b : (inject_Z a <= inject_Z b)%Q <-> (a <= b)%Z.
Proof. rewrite <- Zle_Qle. reflexivity. Qed.
Lemma inject_Z_eq a b : (inject_Z a == inject_Z b)%Q <-> a = b.
Proof. apply inject_Z_injective. Qed.

Lemma QcofZ_lt a b : (QcofZ a < QcofZ b)%Qc <-> (a < b)%Z.
Proof. unfold Qclt. rewrite !this_ofZ. apply inject_Z_lt. Qed.
Lemma QcofZ_le a b : (QcofZ a <= QcofZ b)%Qc <-> (a <= b)%Z.
Proof. unfold Qcle. rewrite !this_ofZ. apply inject_Z_le. Qed.
Lemma QcofZ_eq a b : QcofZ a = QcofZ b <-> a = b.
Proof. rewrite Qc_eq_iff, !this_ofZ. apply inject_Z_eq. Qed.
Lemma QcofZ_add a b : QcofZ (a + b) = (QcofZ a + QcofZ b)%Qc.
Proof. apply Qc_eq_iff. rewrite this_add, !this_ofZ. now rewrite inject_Z_plus. Qed.
Lemma QcofZ_mul a b : QcofZ (a * b) = (QcofZ a * QcofZ b)%Qc.
Proof. apply Qc_eq_iff. rewrite this_mul, !this_ofZ. now rewrite inject_Z_mult. Qed.
Lemma QcofZ_sub a b : QcofZ (a - b) = (QcofZ a - QcofZ b)%Qc.
Proof.
  apply Qc_eq_iff. rewrite this_sub, !this_ofZ.
  unfold Z.sub. rewrite inject_Z_plus, inject_Z_opp. ring.
Qed.
Lemma QcofZ_0 : QcofZ 0 = 0%Qc. Proof. now apply Qc_is_canon. Qed.
Lemma QcofZ_1 : QcofZ 1 = 1%Qc. Proof. now apply Qc_is_canon. Qed.

Lemma Qcfloor_spec q : (QcofZ (Qcfloor q) <= q)%Qc /\ (q < QcofZ (Qcfloor q + 1))%Qc.
Proof.
  unfold Qcle, Qclt, Qcfloor. rewrite !this_ofZ.
  split; [apply Qfloor_le | apply Qlt_floor].
Qed.
Lemma Qcfloor_unique q z : (QcofZ z <= q)%Qc -> (q < QcofZ (z + 1))%Qc -> Qcfloor q = z.
Proof.
  intros H1 H2. destruct (Qcfloor_spec q) as [H3 H4].
  assert (z < Qcfloor q + 1)%Z by (apply QcofZ_lt; eapply Qcle_lt_trans; eauto).
  assert (Qcfloor q < z + 1)%Z by (apply QcofZ_lt; eapply Qcle_lt_trans; eauto).
  lia.
Qed.
Lemma Qcceiling_spec q : (q <= QcofZ (Qcceiling q))%Qc /\ (QcofZ (Qcceiling q - 1) < q)%Qc.
Proof.
  unfold Qcle, Qclt, Qcceiling. rewrite !this_ofZ.
  split; [apply Qle_ceiling | apply Qceiling_lt].
Qed.
Lemma Qcceiling_unique q z : (q <= QcofZ z)%Qc -> (QcofZ (z - 1) < q)%Qc -> Qcceiling q = z.
Proof.
  intros H1 H2. destruct (Qcceiling_spec q) as [H3 H4].
  assert (z - 1 < Qcceiling q)%Z by (apply QcofZ_lt; eapply Qclt_le_trans; eauto).
  assert (Qcceiling q - 1 < z)%Z by (apply QcofZ_lt; eapply Qclt_le_trans; eauto).
  lia.
Qed.
Lemma Qcfloor_ofZ z : Qcfloor (QcofZ z) = z.
Proof. apply Qcfloor_unique; [apply Qcle_refl | apply QcofZ_lt; lia]. Qed.
Lemma Qcceiling_ofZ z : Qcceiling (QcofZ z) = z.
Proof. apply Qcceiling_unique; [apply Qcle_refl | apply QcofZ_lt; lia]. Qed.
Lemma Qctrunc_nonneg q : (0 <= q)%Qc -> Qctrunc q = Qcfloor q.
Proof. intro H. unfold Qctrunc. apply Qcleb_true in H. now rewrite H. Qed.

(** ** xq comparisons *)
Definition xfin (a : xq) : Prop := exists q, a = Fin q.
Definition notnan (a : xq) : Prop := a <> XNaN.

Lemma xq_eqb_refl a : notnan a -> xq_eqb a a = true.
Proof. destruct a; simpl; auto using Qceqb_refl; intro H; now destruct H. Qed.
Lemma xq_eqb_true a b : xq_eqb a b = true -> a = b /\ notnan a.
Proof.
  destruct a, b; simpl; try discriminate; intro H; qb_simpl; subst;
    split; auto; discriminate.
Qed.

(** An order embedding of the non-nan numbers into (-1,1) in Q, so that every
    comparison becomes linear arithmetic. *)
Definition emb (a : xq) : Q :=
  match a with
  | Fin q => (this q / (1 + (if Qle_bool 0 (this q) then this q else - this q)))%Q
  | PInf => 1 | NInf => -(1) | XNaN => 0
  end.

Lemma emb_fin_mono p q : (p < q)%Qc -> (emb (Fin p) < emb (Fin q))%Q.
Proof.
  unfold emb, Qclt. intro H.
  destruct (Qle_bool 0 (this p)) eqn:Ep, (Qle_bool 0 (this q)) eqn:Eq;
    try (apply Qle_bool_iff in Ep); try (apply Qle_bool_iff in Eq);
    try (assert (Ep' : (this p < 0)%Q) by
       (apply Qnot_le_lt; intro L; apply Qle_bool_iff in L; congruence));
    try (assert (Eq' : (this q < 0)%Q) by
       (apply Qnot_le_lt; intro L; apply Qle_bool_iff in L; congruence));
  apply Qlt_shift_div_l; try lra;
  (assert (X : forall a b c, (0 < b -> a / b * c == (a * c) / b)%Q)
     by (intros; field; lra));
  rewrite X by lra;
  apply Qlt_shift_div_r; nra.
Qed.
Lemma emb_fin_bound p : (-(1) < emb (Fin p) < 1)%Q.
Proof.
  unfold emb. destruct (Qle_bool 0 (this p)) eqn:Ep.
  - apply Qle_bool_iff in Ep. split; [apply Qlt_shift_div_l | apply Qlt_shift_div_r]; lra.
  - assert (Ep' : (this p < 0)%Q) by
       (apply Qnot_le_lt; intro L; apply Qle_bool_iff in L; congruence).
    split; [apply Qlt_shift_div_l | apply Qlt_shift_div_r]; lra.
Qed.

Lemma xq_ltb_emb a b : notnan a -> notnan b -> xq_ltb a b = true <-> (emb a < emb b)%Q.
Proof.
  intros Ha Hb.
  destruct a as [p| | |], b as [q| | |]; try (now destruct Ha); try (now destruct Hb);
    try (pose proof (emb_fin_bound p)); try (pose proof (emb_fin_bound q));
    cbn [xq_ltb]; try (split; intro; [ try discriminate | ]; unfold emb in *; lra).
  - rewrite Qcltb_true. split; [apply emb_fin_mono|].
    intro H1. destruct (Qclt_le_dec p q) as [L|L]; auto. exfalso.
    apply Qcle_lt_or_eq in L. destruct L as [L|L].
    + apply emb_fin_mono in L. lra.
    + subst. lra.
Qed.

Lemma emb_fin_inj p q : (emb (Fin p) == emb (Fin q))%Q -> p = q.
Proof.
  intro H. destruct (Qc_dec p q) as [[L|L]|L]; auto; apply emb_fin_mono in L; lra.
Qed.

Lemma xq_eqb_emb a b : notnan a -> notnan b -> xq_eqb a b = true <-> (emb a == emb b)%Q.
Proof.
  intros Ha Hb.
  destruct a as [p| | |], b as [q| | |]; try (now destruct Ha); try (now destruct Hb);
    try (pose proof (emb_fin_bound p)); try (pose proof (emb_fin_bound q));
    cbn [xq_eqb].
  - rewrite Qceqb_true. split; [now intros -> | apply emb_fin_inj].
  - split; [discriminate|]. cbn [emb] in *. lra.
  - split; [discriminate|]. cbn [emb] in *. lra.
  - split; [discriminate|]. cbn [emb] in *. lra.
  - split; reflexivity.
  - split; [discriminate|]. cbn [emb] in *. lra.
  - split; [discriminate|]. cbn [emb] in *. lra.
  - split; [discriminate|]. cbn [emb] in *. lra.
  - split; reflexivity.
Qed.

Lemma xq_leb_ltb a b : notnan a -> notnan b -> xq_leb a b = negb (xq_ltb b a).
Proof.
  intros Ha Hb.
  destruct a as [p| | |], b as [q| | |]; try (now destruct Ha); try (now destruct Hb);
    try reflexivity.
  simpl. unfold Qcleb, Qcltb. now rewrite negb_involutive.
Qed.

Lemma xq_leb_emb a b : notnan a -> notnan b -> xq_leb a b = true <-> (emb a <= emb b)%Q.
Proof.
  intros Ha Hb. rewrite xq_leb_ltb, negb_true_iff by auto.
  pose proof (xq_ltb_emb b a Hb Ha).
  destruct (xq_ltb b a); split; intros; try discriminate; try reflexivity.
  - destruct H as [H _]. specialize (H eq_refl). lra.
  - apply Qnot_lt_le. intro L. apply H in L. discriminate.
Qed.

Lemma emb_eq a b : notnan a -> notnan b -> (emb a == emb b)%Q -> a = b.
Proof. intros Ha Hb H. apply (xq_eqb_emb a b Ha Hb) in H. now apply xq_eqb_true in H. Qed.

(** Between two different extended numbers there is a finite one. *)
Lemma emb_dense a b : notnan a -> notnan b -> (emb a < emb b)%Q ->
  exists q, (emb a < emb (Fin q) < emb b)%Q.
Proof.
  intros Ha Hb H.
  destruct a as [p| | |], b as [q| | |]; try (now destruct Ha); try (now destruct Hb);
   try (cbn [emb] in H; lra).
  - exists ((p + q) * Q2Qc (1#2))%Qc.
    assert (L : (p < q)%Qc).
    { apply Qcltb_true. apply (xq_ltb_emb (Fin p) (Fin q)); auto. }
    split; apply emb_fin_mono; qc_lra.
  - exists (p + 1)%Qc. pose proof (emb_fin_bound (p + 1)%Qc).
    split; [apply emb_fin_mono; qc_lra | change (emb PInf) with 1%Q; lra].
  - pose proof (emb_fin_bound p). cbn [emb] in *. lra.
  - pose proof (emb_fin_bound q). cbn [emb] in *. lra.
  - exists (q - 1)%Qc. pose proof (emb_fin_bound (q - 1)%Qc).
    split; [change (emb NInf) with (-(1))%Q; lra | apply emb_fin_mono; qc_lra].
  - exists 0%Qc. pose proof (emb_fin_bound 0%Qc). change (emb PInf) with 1%Q; change (emb NInf) with (-(1))%Q. lra.
Qed.

(** BoolSpec forms, for case analysis. *)
Lemma xq_ltb_spec a b : notnan a -> notnan b ->
  BoolSpec (emb a < emb b)%Q (emb b <= emb a)%Q (xq_ltb a b).
Proof.
  intros Ha Hb. destruct (xq_ltb a b) eqn:E; constructor.
  - now apply xq_ltb_emb.
  - apply xq_leb_emb; auto. rewrite xq_leb_ltb, E; auto.
Qed.
Lemma xq_leb_spec a b : notnan a -> notnan b ->
  BoolSpec (emb a <= emb b)%Q (emb b < emb a)%Q (xq_leb a b).
Proof.
  intros Ha Hb. destruct (xq_leb a b) eqn:E; constructor.
  - now apply xq_leb_emb.
  - apply xq_ltb_emb; auto. rewrite xq_leb_ltb in E by auto.
    now apply negb_false_iff in E.
Qed.
Lemma xq_eqb_spec a b : notnan a -> notnan b ->
  BoolSpec (emb a == emb b)%Q (~ emb a == emb b)%Q (xq_eqb a b).
Proof.
  intros Ha Hb. destruct (xq_eqb a b) eqn:E; constructor.
  - now apply xq_eqb_emb.
  - intro H. apply xq_eqb_emb in H; auto. congruence.
Qed.

Lemma notnan_fin q : notnan (Fin q). Proof. discriminate. Qed.
Lemma notnan_pinf : notnan PInf. Proof. discriminate. Qed.
Lemma notnan_ninf : notnan NInf. Proof. discriminate. Qed.
#[export] Hint Resolve notnan_fin notnan_pinf notnan_ninf : nn.

Ltac nn := solve [assumption | discriminate | auto with nn].

(** Case split on every extended-number comparison in the goal. *)
Ltac xcase :=
  match goal with
  | |- context [xq_ltb ?a ?b] => destruct (xq_ltb_spec a b ltac:(nn) ltac:(nn))
  | |- context [xq_leb ?a ?b] => destruct (xq_leb_spec a b ltac:(nn) ltac:(nn))
  | |- context [xq_eqb ?a ?b] => destruct (xq_eqb_spec a b ltac:(nn) ltac:(nn))
  end.
