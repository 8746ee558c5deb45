(** The interval contract has its set meaning over exact numbers. *)
From Coq Require Import List ZArith QArith Qcanon Bool Lia Lqa.
From Verif Require Import Base Num NumFacts Interval.
Import ListNotations.

Definition xival := ival xq.

(** ** Specification: an interval as a set of numbers *)

(** [lt_x a b], [le_x a b]: the order of the extended numbers. *)
Definition lt_x (a b : xq) : Prop := xq_ltb a b = true.
Definition le_x (a b : xq) : Prop := xq_leb a b = true.

(** [imem i x]: x lies between the ends, ends included iff closed. *)
Definition imem (i : xival) (x : xq) : Prop :=
  (if i_so i then lt_x (i_start i) x else le_x (i_start i) x) /\
  (if i_eo i then lt_x x (i_end i) else le_x x (i_end i)).

(** No nan endpoint. *)
Definition iok (i : xival) : Prop := notnan (i_start i) /\ notnan (i_end i).

Definition elt (a b : xq) := (emb a < emb b)%Q.
Definition ele (a b : xq) := (emb a <= emb b)%Q.

Lemma lt_x_emb a b : notnan a -> notnan b -> lt_x a b <-> (emb a < emb b)%Q.
Proof. apply xq_ltb_emb. Qed.
Lemma le_x_emb a b : notnan a -> notnan b -> le_x a b <-> (emb a <= emb b)%Q.
Proof. apply xq_leb_emb. Qed.

(** [imem] in embedded form *)
Definition emem (i : xival) (v : Q) : Prop :=
  (if i_so i then emb (i_start i) < v else emb (i_start i) <= v)%Q /\
  (if i_eo i then v < emb (i_end i) else v <= emb (i_end i))%Q.

Lemma imem_emem i x : iok i -> notnan x -> imem i x <-> emem i (emb x).
Proof.
  intros [H1 H2] H3. unfold imem, emem.
  destruct (i_so i), (i_eo i);
    rewrite ?(lt_x_emb (i_start i) x), ?(le_x_emb (i_start i) x),
      ?(lt_x_emb x (i_end i)), ?(le_x_emb x (i_end i)) by auto; tauto.
Qed.

Lemma iok_mk s e so eo : notnan s -> notnan e -> iok (mkI s e so eo).
Proof. split; auto. Qed.
Lemma iok_empty : iok i_empty. Proof. split; discriminate. Qed.
Lemma iok_infinite : iok i_infinite. Proof. split; discriminate. Qed.
#[export] Hint Resolve iok_mk iok_empty iok_infinite : nn.

Ltac iunf := unfold n_gtb, n_geb in *; cbn [n_ltb n_leb n_eqb XQ] in *.

Definition eempty (i : xival) : Prop :=
  (emb (i_end i) < emb (i_start i))%Q \/
  ((emb (i_start i) == emb (i_end i))%Q /\ (i_so i = true \/ i_eo i = true)).

Ltac bfin := try reflexivity; try discriminate; simpl in *; try tauto; try lra; intuition (try lra; try congruence).

Lemma is_empty_e i : iok i -> i_is_empty i = true <-> eempty i.
Proof.
  intros [H1 H2]. destruct i as [s e so eo]; unfold i_is_empty, eempty; cbn [i_start i_end i_so i_eo] in *.
  iunf. repeat xcase; destruct so, eo; simpl; intuition (try discriminate; try lra).
Qed.

Lemma is_empty_e_false i : iok i -> i_is_empty i = false <-> ~ eempty i.
Proof. intros H. rewrite <- is_empty_e by auto. destruct (i_is_empty i); split; congruence. Qed.

Lemma empty_no_emem i v : eempty i -> ~ emem i v.
Proof.
  unfold eempty, emem. destruct i as [s e so eo]; cbn [i_start i_end i_so i_eo] in *.
  destruct so, eo; intuition (try discriminate; try lra).
Qed.

(** A non-empty interval contains a finite number or is a single point. *)
Lemma nonempty_emem i : iok i -> ~ eempty i -> exists x, notnan x /\ emem i (emb x).
Proof.
  intros [H1 H2] Hne. unfold eempty in Hne. destruct i as [s e so eo]; cbn [i_start i_end i_so i_eo] in *.
  destruct (Q_dec (emb s) (emb e)) as [[L|L]|L].
  - destruct (emb_dense s e) as [q [Q1 Q2]]; auto.
    exists (Fin q). split; [nn|]. unfold emem; cbn [i_start i_end i_so i_eo].
    destruct so, eo; split; lra.
  - exfalso; apply Hne; lra.
  - exists s. split; auto. unfold emem; cbn [i_start i_end i_so i_eo].
    destruct so, eo; try (exfalso; apply Hne; right; split; auto; fail). split; lra.
Qed.

(** is_empty means: contains nothing *)
Lemma is_empty_iff i : iok i ->
  i_is_empty i = true <-> (forall x, notnan x -> ~ imem i x).
Proof.
  intros H. rewrite is_empty_e by auto. split.
  - intros He x Hx Hm. apply imem_emem in Hm; auto. eapply empty_no_emem; eauto.
  - intros Hn. destruct (i_is_empty i) eqn:E; [now apply is_empty_e|].
    exfalso. apply is_empty_e_false in E; auto.
    destruct (nonempty_emem i) as [x [Hx Hm]]; auto.
    apply (Hn x Hx). now apply imem_emem.
Qed.

Lemma above_start_e i x : iok i -> notnan x ->
  above_start i x = true <-> (if i_so i then emb (i_start i) < emb x else emb (i_start i) <= emb x)%Q.
Proof.
  intros [H1 H2] Hx. destruct i as [s e so eo]; unfold above_start; cbn [i_start i_end i_so i_eo] in *.
  iunf. repeat xcase; destruct so; simpl; intuition (try discriminate; try lra).
Qed.
Lemma below_end_e i x : iok i -> notnan x ->
  below_end i x = true <-> (if i_eo i then emb x < emb (i_end i) else emb x <= emb (i_end i))%Q.
Proof.
  intros [H1 H2] Hx. destruct i as [s e so eo]; unfold below_end; cbn [i_start i_end i_so i_eo] in *.
  iunf. repeat xcase; destruct eo; simpl; intuition (try discriminate; try lra).
Qed.

(** contains is membership *)
Lemma contains_e i x : iok i -> notnan x -> i_contains i x = true <-> emem i (emb x).
Proof.
  intros Hi Hx. unfold i_contains, i_contains_gen.
  rewrite !andb_true_iff. cbn [negb orb].
  rewrite above_start_e, below_end_e by auto. rewrite negb_true_iff, is_empty_e_false by auto.
  unfold emem. split; [tauto|]. intros [A B]. repeat split; auto.
  intro E. eapply empty_no_emem; eauto. split; eauto.
Qed.

Lemma contains_iff i x : iok i -> notnan x -> i_contains i x = true <-> imem i x.
Proof. intros Hi Hx. rewrite imem_emem by auto. now apply contains_e. Qed.

Lemma contains_false_e i x : iok i -> notnan x -> i_contains i x = false <-> ~ emem i (emb x).
Proof.
  intros Hi Hx. rewrite <- contains_e by auto. destruct (i_contains i x); split; congruence.
Qed.

(** superset is set inclusion *)
Lemma superset_e a b : iok a -> iok b ->
  i_superset a b = true <-> (eempty b \/
     (~ eempty a /\
      (if negb (i_so a) || i_so b then emb (i_start a) <= emb (i_start b) else emb (i_start a) < emb (i_start b))%Q /\
      (if negb (i_eo a) || i_eo b then emb (i_end b) <= emb (i_end a) else emb (i_end b) < emb (i_end a))%Q)).
Proof.
  intros Ha Hb. unfold i_superset.
  rewrite orb_true_iff, !andb_true_iff, negb_true_iff, is_empty_e, is_empty_e_false by auto.
  destruct Ha, Hb. destruct a as [s e so eo], b as [s' e' so' eo']; cbn [i_start i_end i_so i_eo] in *.
  iunf. repeat xcase; destruct so, eo, so', eo'; simpl; intuition (try discriminate; try lra).
Qed.

Lemma superset_emem a b : iok a -> iok b ->
  i_superset a b = true -> forall v, emem b v -> emem a v.
Proof.
  intros Ha Hb H v Hv. apply superset_e in H; auto. destruct H as [H|[_ [H1 H2]]].
  - exfalso; eapply empty_no_emem; eauto.
  - unfold emem in *. destruct a as [s e so eo], b as [s' e' so' eo']; cbn [i_start i_end i_so i_eo] in *.
    destruct so, eo, so', eo'; simpl in *; lra.
Qed.

Lemma emem_superset a b : iok a -> iok b ->
  (forall x, notnan x -> emem b (emb x) -> emem a (emb x)) -> i_superset a b = true.
Proof.
  intros Ha Hb H. apply superset_e; auto.
  destruct (i_is_empty b) eqn:Eb; [left; now apply is_empty_e|right].
  apply is_empty_e_false in Eb; auto.
  destruct (nonempty_emem b Hb Eb) as [x0 [Hx0 Hm0]].
  assert (Ham : emem a (emb x0)) by auto.
  split. { intro E; eapply empty_no_emem; eauto. }
  unfold eempty in Eb. destruct Ha as [Ha1 Ha2], Hb as [Hb1 Hb2].
  destruct a as [s e so eo], b as [s' e' so' eo']; cbn [i_start i_end i_so i_eo] in *.
  unfold emem in *; cbn [i_start i_end i_so i_eo] in *.
  assert (D: forall lo hi, notnan lo -> notnan hi -> (emb lo < emb hi)%Q ->
      exists x, notnan x /\ (emb lo < emb x < emb hi)%Q).
  { intros lo hi L1 L2 L3. destruct (emb_dense lo hi L1 L2 L3) as [q Hq]. exists (Fin q). split; [nn|lra]. }
  split.
  - destruct so, so'; simpl.
    + apply Qnot_lt_le. intro L.
      destruct (Qlt_le_dec (emb s) (emb x0)) as [L2|L2]; [|lra].
      destruct (D s' s) as [z [Hz1 Hz2]]; auto.
      specialize (H z Hz1). destruct eo', eo; lra.
    + destruct (Qlt_le_dec (emb s) (emb s')) as [L2|L2]; auto. exfalso.
      assert (H' := H s' Hb1). destruct eo', eo; lra.
    + apply Qnot_lt_le. intro L.
      destruct (D s' s) as [z [Hz1 Hz2]]; auto.
      specialize (H z Hz1). destruct eo', eo; lra.
    + apply Qnot_lt_le. intro L.
      assert (H' := H s' Hb1). destruct eo', eo; lra.
  - destruct eo, eo'; simpl.
    + apply Qnot_lt_le. intro L.
      destruct (D e e') as [z [Hz1 Hz2]]; auto.
      specialize (H z Hz1). destruct so', so; lra.
    + destruct (Qlt_le_dec (emb e') (emb e)) as [L2|L2]; auto. exfalso.
      assert (H' := H e' Hb2). destruct so', so; lra.
    + apply Qnot_lt_le. intro L.
      destruct (D e e') as [z [Hz1 Hz2]]; auto.
      specialize (H z Hz1). destruct so', so; lra.
    + apply Qnot_lt_le. intro L.
      assert (H' := H e' Hb2). destruct so', so; lra.
Qed.

Lemma superset_iff a b : iok a -> iok b ->
  i_superset a b = true <-> (forall x, notnan x -> imem b x -> imem a x).
Proof.
  intros Ha Hb. split.
  - intros H x Hx Hm. rewrite imem_emem in * by auto. eapply superset_emem; eauto.
  - intros H. apply emem_superset; auto. intros x Hx Hm.
    apply imem_emem; auto. apply H; auto. now apply imem_emem.
Qed.

(** intersection *)
Lemma iok_inter2 a b : iok a -> iok b -> iok (i_inter2 a b).
Proof.
  intros [A1 A2] [B1 B2]. unfold i_inter2. destruct (_ || _); [nn|].
  unfold later_start, earlier_end.
  destruct (n_ltb (i_start a) (i_start b)), (n_ltb (i_start b) (i_start a)),
    (n_ltb (i_end a) (i_end b)), (n_ltb (i_end b) (i_end a));
  match goal with |- context [if ?c then _ else _] => destruct c end; try apply iok_empty; split; auto.
Qed.

Lemma eempty_empty : eempty i_empty.
Proof. right. split; [reflexivity|now left]. Qed.

Lemma inter2_emem a b v : iok a -> iok b -> emem (i_inter2 a b) v <-> emem a v /\ emem b v.
Proof.
  intros Ha Hb. unfold i_inter2.
  destruct (i_is_empty a) eqn:Ea.
  { simpl. apply is_empty_e in Ea; auto. split.
    - intro H. exfalso. eapply empty_no_emem; [apply eempty_empty|]; eauto.
    - intros [H _]. exfalso. eapply empty_no_emem; eauto. }
  destruct (i_is_empty b) eqn:Eb.
  { simpl. apply is_empty_e in Eb; auto. split.
    - intro H. exfalso. eapply empty_no_emem; [apply eempty_empty|]; eauto.
    - intros [_ H]. exfalso. eapply empty_no_emem; eauto. }
  cbn [orb].
  destruct (later_start a b) as [s so] eqn:Es. destruct (earlier_end a b) as [e eo] eqn:Ee.
  assert (X : notnan s /\ notnan e /\ (emem (mkI s e so eo) v <-> emem a v /\ emem b v)).
  { destruct Ha as [A1 A2], Hb as [B1 B2].
    unfold later_start, earlier_end in *. iunf.
    unfold emem. cbn [i_start i_end i_so i_eo].
    destruct a as [s1 e1 so1 eo1], b as [s2 e2 so2 eo2]; cbn [i_start i_end i_so i_eo] in *.
    revert Es Ee. repeat xcase; intros Es Ee; injection Es as <- <-; injection Ee as <- <-; split; auto; split; auto;
    destruct so1, so2, eo1, eo2; simpl; intuition lra. }
  destruct X as [X1 [X2 X3]].
  destruct (i_is_empty (mkI s e so eo)) eqn:Ei; auto.
  apply is_empty_e in Ei; [|now apply iok_mk]. rewrite <- X3. split.
  - intro H. exfalso. eapply empty_no_emem; [apply eempty_empty|]; eauto.
  - intros H. exfalso. eapply empty_no_emem; eauto.
Qed.

Lemma inter2_iff a b x : iok a -> iok b -> notnan x ->
  imem (i_inter2 a b) x <-> imem a x /\ imem b x.
Proof.
  intros Ha Hb Hx. rewrite !imem_emem by auto using iok_inter2. now apply inter2_emem.
Qed.

Lemma intersects_iff a b : iok a -> iok b ->
  i_intersects a b = true <-> exists x, notnan x /\ imem a x /\ imem b x.
Proof.
  intros Ha Hb. unfold i_intersects. rewrite negb_true_iff.
  rewrite is_empty_e_false by auto using iok_inter2. split.
  - intro H. destruct (nonempty_emem _ (iok_inter2 a b Ha Hb) H) as [x [Hx Hm]].
    exists x. split; auto. rewrite <- inter2_iff by auto. apply imem_emem; auto using iok_inter2.
  - intros [x [Hx Hm]] E. rewrite <- inter2_iff in Hm by auto.
    apply imem_emem in Hm; auto using iok_inter2. eapply empty_no_emem; eauto.
Qed.

Lemma intersects_sym a b : iok a -> iok b -> i_intersects a b = i_intersects b a.
Proof.
  intros Ha Hb. apply eq_true_iff_eq. rewrite !intersects_iff by auto.
  split; intros [x [? [? ?]]]; exists x; auto.
Qed.

(** union: the smallest covering interval *)
Lemma iok_union2 a b : iok a -> iok b -> iok (i_union2 a b).
Proof.
  intros [A1 A2] [B1 B2]. unfold i_union2.
  destruct (i_is_empty a), (i_is_empty b); try apply iok_empty; try (split; auto; fail).
  unfold earlier_start, later_end.
  destruct (n_ltb (i_start a) (i_start b)), (n_ltb (i_start b) (i_start a)),
    (n_ltb (i_end a) (i_end b)), (n_ltb (i_end b) (i_end a)); split; auto.
Qed.

Lemma union2_cover a b v : iok a -> iok b -> emem a v \/ emem b v -> emem (i_union2 a b) v.
Proof.
  intros Ha Hb H. unfold i_union2.
  destruct (i_is_empty a) eqn:Ea.
  { apply is_empty_e in Ea; auto. destruct H as [H|H]; [exfalso; eapply empty_no_emem; eauto|].
    destruct (i_is_empty b) eqn:Eb; auto. apply is_empty_e in Eb; auto.
    exfalso; eapply empty_no_emem; eauto. }
  destruct (i_is_empty b) eqn:Eb.
  { apply is_empty_e in Eb; auto. destruct H as [H|H]; auto. exfalso; eapply empty_no_emem; eauto. }
  apply is_empty_e_false in Ea, Eb; auto. unfold eempty in *.
  destruct Ha as [A1 A2], Hb as [B1 B2]. unfold earlier_start, later_end. iunf.
  unfold emem in *.
  destruct a as [s1 e1 so1 eo1], b as [s2 e2 so2 eo2]; cbn [i_start i_end i_so i_eo] in *.
  repeat xcase; cbn [i_start i_end i_so i_eo] in *; destruct so1, so2, eo1, eo2; simpl in *; intuition lra.
Qed.

Lemma union2_superset_l a b : iok a -> iok b -> i_superset (i_union2 a b) a = true.
Proof.
  intros. apply emem_superset; auto using iok_union2. intros. apply union2_cover; auto.
Qed.
Lemma union2_superset_r a b : iok a -> iok b -> i_superset (i_union2 a b) b = true.
Proof.
  intros. apply emem_superset; auto using iok_union2. intros. apply union2_cover; auto.
Qed.

Lemma union2_least a b c : iok a -> iok b -> iok c ->
  i_superset c a = true -> i_superset c b = true -> i_superset c (i_union2 a b) = true.
Proof.
  intros Ha Hb Hc H1 H2. unfold i_union2.
  destruct (i_is_empty a) eqn:Ea.
  { destruct (i_is_empty b) eqn:Eb; auto. }
  destruct (i_is_empty b) eqn:Eb; auto.
  destruct (earlier_start a b) as [s so] eqn:Es. destruct (later_end a b) as [e eo] eqn:Ee.
  apply is_empty_e_false in Ea, Eb; auto.
  apply superset_e in H1, H2; auto.
  destruct H1 as [H1|[H0 H1]]; [contradiction|]. destruct H2 as [H2|[_ H2]]; [contradiction|].
  assert (N : notnan s /\ notnan e).
  { destruct Ha, Hb. unfold earlier_start, later_end in *.
    destruct (n_ltb (i_start a) (i_start b)), (n_ltb (i_start b) (i_start a)),
    (n_ltb (i_end a) (i_end b)), (n_ltb (i_end b) (i_end a)); inversion Es; inversion Ee; subst; auto. }
  destruct N as [N1 N2].
  apply superset_e; auto using iok_mk. right. split; auto.
  destruct Ha as [A1 A2], Hb as [B1 B2].
  unfold earlier_start, later_end in *. iunf.
  destruct a as [s1 e1 so1 eo1], b as [s2 e2 so2 eo2], c as [s3 e3 so3 eo3]; cbn [i_start i_end i_so i_eo] in *.
  revert Es Ee. repeat xcase; intros Es Ee; injection Es as <- <-; injection Ee as <- <-;
    destruct so1, so2, eo1, eo2, so3, eo3; simpl in *; intuition lra.
Qed.

(** hull is empty iff both are *)
Lemma union2_is_empty a b : iok a -> iok b ->
  i_is_empty (i_union2 a b) = i_is_empty a && i_is_empty b.
Proof.
  intros Ha Hb. unfold i_union2.
  destruct (i_is_empty a) eqn:Ea, (i_is_empty b) eqn:Eb; auto.
  - assert (X : iok (i_union2 a b)) by auto using iok_union2.
    pose proof (union2_cover a b) as C. unfold i_union2 in *. rewrite Ea, Eb in *.
    destruct (earlier_start a b) as [s so]. destruct (later_end a b) as [e eo].
    apply is_empty_e_false; auto. intro E.
    apply is_empty_e_false in Ea; auto. destruct (nonempty_emem a Ha Ea) as [x [Hx Hm]].
    eapply empty_no_emem; eauto.
Qed.

Lemma superset_refl a : iok a -> i_superset a a = true.
Proof. intros. apply emem_superset; auto. Qed.
Lemma superset_trans a b c : iok a -> iok b -> iok c ->
  i_superset a b = true -> i_superset b c = true -> i_superset a c = true.
Proof.
  intros Ha Hb Hc H1 H2. apply emem_superset; auto. intros x Hx Hm.
  eapply superset_emem with (b := b); eauto. eapply superset_emem with (b := c); eauto.
Qed.
Lemma superset_empty_r (a b : xival) : i_is_empty b = true -> i_superset a b = true.
Proof. intros H. unfold i_superset. now rewrite H. Qed.
Lemma superset_empty_l (a b : xival) : i_is_empty a = true -> i_superset a b = i_is_empty b.
Proof. intros H. unfold i_superset. rewrite H. simpl. now rewrite orb_false_r. Qed.

(** Non-empty intervals that cover each other are equal. *)
Lemma superset_antisym a b : iok a -> iok b -> i_is_empty a = false ->
  i_superset a b = true -> i_superset b a = true -> i_is_empty b = false -> a = b.
Proof.
  intros Ha Hb Ea H1 H2 Eb. apply superset_e in H1, H2; auto.
  apply is_empty_e_false in Ea, Eb; auto.
  destruct H1 as [H1|[_ H1]]; [contradiction|]. destruct H2 as [H2|[_ H2]]; [contradiction|].
  destruct Ha as [A1 A2], Hb as [B1 B2].
  destruct a as [s1 e1 so1 eo1], b as [s2 e2 so2 eo2]; cbn [i_start i_end i_so i_eo] in *.
  assert (s1 = s2). { apply emb_eq; auto. destruct so1, so2, eo1, eo2; simpl in *; lra. }
  assert (e1 = e2). { apply emb_eq; auto. destruct so1, so2, eo1, eo2; simpl in *; lra. }
  subst. f_equal; destruct so1, so2, eo1, eo2; simpl in *; try reflexivity; lra.
Qed.

(** union with an empty interval *)
Lemma union2_empty_l b : iok b -> i_is_empty b = false -> i_union2 i_empty b = b.
Proof. intros Hb E. unfold i_union2. rewrite (proj2 (is_empty_e i_empty iok_empty) eempty_empty), E. reflexivity. Qed.
Lemma i_empty_is_empty : i_is_empty (T:=xq) i_empty = true.
Proof. apply is_empty_e; [apply iok_empty|apply eempty_empty]. Qed.
