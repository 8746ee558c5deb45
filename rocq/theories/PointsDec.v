(** Decision procedures used by concrete examples. *)
From Coq Require Import List ZArith QArith Qcanon Bool Lia Lqa Sorting.Sorted.
From Verif Require Import Base Num NumFacts Interval IntervalFacts Curve Points PointsSpec PointsIdx PointsQuery PointsOps.
Import ListNotations.

Definition fz (z : Z) : xq := Fin (QcofZ z).
Definition fr (n d : Z) : xq := Fin (QcofZ n / QcofZ d)%Qc.
Definition nv (z : Z) : option xq := Some (fz z).

Section Dec.
Context {V : Type} {W : Val xq V}.
Implicit Type l : list (xq * V).

Fixpoint ascb l : bool :=
  match l with
  | [] => true
  | a :: l' => (match fst a with Fin _ => true | _ => false end) &&
               (match l' with [] => true | b :: _ => xq_ltb (fst a) (fst b) end) && ascb l'
  end.
Lemma ascb_sound l : ascb l = true -> ascending l.
Proof.
  induction l as [|a l IH]; intros H; [split; constructor|].
  cbn [ascb] in H. rewrite !andb_true_iff in H. destruct H as [[H1 H2] H3]. specialize (IH H3).
  change (a :: l) with ([a] ++ l). destruct a as [[q| | |] v]; try discriminate.
  destruct l as [|b l]; [split; repeat constructor; simpl; now exists q|].
  apply ascending_join with (z := (Fin q, v)) (a := b); auto.
  split; repeat constructor. simpl. now exists q.
Qed.

Fixpoint eqsb_from (x h : Qc) l : bool :=
  match l with
  | [] => true
  | a :: l' => match fst a with Fin q => Qceqb q x | _ => false end && eqsb_from (x + h)%Qc h l'
  end.
Lemma eqsb_sound l x h : Qcltb 0 h = true -> eqsb_from x h l = true -> equally_spaced l.
Proof.
  intros Hh H. exists x, h. split; [now apply Qcltb_true|].
  clear Hh. revert x H. induction l as [|a l IH]; intros x H i p Hi; [destruct i; discriminate|].
  cbn [eqsb_from] in H. apply andb_true_iff in H. destruct H as [H1 H2].
  destruct i as [|i]; cbn [nth_error] in Hi.
  - injection Hi as <-. destruct (fst a) as [q| | |]; try discriminate. apply Qceqb_true in H1. subst. f_equal.
    change (QcofZ (Z.of_nat 0)) with (QcofZ 0). rewrite QcofZ_0. ring.
  - rewrite (IH _ H2 i p Hi). f_equal. rewrite Nat2Z.inj_succ. unfold Z.succ. rewrite QcofZ_add, QcofZ_1. ring.
Qed.
Lemma not_equally l a b c va vb vc : nth_error l 0 = Some (Fin a, va) -> nth_error l 1 = Some (Fin b, vb) -> nth_error l 2 = Some (Fin c, vc) ->
  (b - a <> c - b)%Qc -> ~ equally_spaced l.
Proof.
  intros Ha Hb Hc N [x0 [h [Hh E]]]. apply N.
  apply E in Ha, Hb, Hc. cbn [fst] in *. injection Ha as ->. injection Hb as ->. injection Hc as ->.
  assert (E0 : QcofZ 0 = 0%Qc) by (apply Qc_is_canon; reflexivity).
  assert (E1 : QcofZ 1 = 1%Qc) by (apply Qc_is_canon; reflexivity).
  assert (E2 : QcofZ 2 = (1 + 1)%Qc) by (apply Qc_is_canon; reflexivity).
  rewrite E0, E1, E2. ring.
Qed.
End Dec.

(** A numeric result. *)
Definition is_val (r : res (option xq)) (x : xq) : bool :=
  match r with Ok (Some a) => xq_eqb a x && negb (n_isnan a) | _ => false end.
Lemma xq_eqb_eq a b : xq_eqb a b = true -> a = b.
Proof. destruct a, b; simpl; try discriminate; auto. intros H. apply Qceqb_true in H. now subst. Qed.
Lemma is_val_eq r x : is_val r x = true -> r = Ok (Some x).
Proof.
  unfold is_val. destruct r as [[a|]|]; try discriminate. rewrite andb_true_iff. intros [H _]. now rewrite (xq_eqb_eq _ _ H).
Qed.
Definition is_opt (r : res (option xq)) (x : option xq) : bool :=
  match r, x with Ok (Some a), Some b => xq_eqb a b | Ok None, None => true | _, _ => false end.
Lemma is_opt_eq r x : is_opt r x = true -> r = Ok x.
Proof. unfold is_opt. destruct r as [[a|]|], x; try discriminate; auto. intros H. now rewrite (xq_eqb_eq _ _ H). Qed.

Lemma lerp_total_num : lerp_total (V := option xq).
Proof. intros u [a|] [b|]; simpl; eauto. Qed.
