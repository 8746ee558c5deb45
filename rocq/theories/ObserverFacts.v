(** The registry refines its specification; what notifications call. *)
From Coq Require Import List ZArith Bool Lia Permutation.
From Verif Require Import Base Num Interval Curve Observer ObserverSpec.
Import ListNotations.

Section Facts.
Context {T : Type} {N : Num T}.
Implicit Types (A B : list (entry T)) (r : reg T).

Definition data_of (e : entry T) : odata T :=
  mkO (e_obj e) (e_dom e) (e_begin e) (e_end e) (takes_interval (e_begin e)) (takes_interval (e_end e)).

Record refines (r : reg T) (s : list (entry T) * Z) : Prop := {
  rf_counter : r_counter r = snd s;
  rf_pos : (0 <= snd s)%Z;
  rf_tokens : r_tokens r = map e_tok (order (fst s));
  rf_data : r_data r = map (fun e => (e_tok e, data_of e)) (fst s);
  rf_nodup : NoDup (map e_tok (fst s));
  rf_range : forall e, In e (fst s) -> (0 < e_tok e <= snd s)%Z
}.

Lemma order_perm A : Permutation (order A) A.
Proof.
  unfold order. rewrite <- Permutation_rev. induction A as [|e A IH]; simpl; auto.
  destruct (e_prio e); simpl; [now constructor|].
  etransitivity; [|apply perm_skip, IH]. rewrite <- Permutation_middle. reflexivity.
Qed.
Lemma in_order A e : In e (order A) <-> In e A.
Proof. split; apply Permutation_in; [|symmetry]; apply order_perm. Qed.
Lemma filter_rev' {X} (f : X -> bool) l : filter f (rev l) = rev (filter f l).
Proof. induction l as [|x l IH]; simpl; auto. rewrite filter_app, IH. simpl. destruct (f x); simpl; auto. apply app_nil_r. Qed.
Lemma filter_order f A : filter f (order A) = order (filter f A).
Proof.
  unfold order. rewrite filter_app, filter_rev'. f_equal; [f_equal|].
  - induction A as [|e A IH]; simpl; auto. destruct (f e) eqn:F, (e_prio e) eqn:P; simpl; rewrite ?F, ?P; auto. now f_equal.
  - induction A as [|e A IH]; simpl; auto. destruct (f e) eqn:F, (e_prio e) eqn:P; simpl; rewrite ?F, ?P; auto. simpl. now f_equal.
Qed.
Lemma nodup_order A : NoDup (map e_tok A) -> NoDup (map e_tok (order A)).
Proof. intros H. eapply Permutation_NoDup; [|exact H]. apply Permutation_map. symmetry. apply order_perm. Qed.

Lemma d_get_map A t : d_get (map (fun e => (e_tok e, data_of e)) A) t =
  match find (fun e => (e_tok e =? t)%Z) A with Some e => Some (data_of e) | None => None end.
Proof.
  induction A as [|e A IH]; [reflexivity|]. unfold d_get in *. simpl. destruct (e_tok e =? t)%Z; auto.
Qed.
Lemma d_del_map A t : d_del (map (fun e => (e_tok e, data_of e)) A) t =
  map (fun e => (e_tok e, data_of e)) (filter (fun e => negb (e_tok e =? t)%Z) A).
Proof. unfold d_del. induction A as [|e A IH]; simpl; auto. destruct (e_tok e =? t)%Z; simpl; congruence. Qed.
Lemma l_remove_filter t l : NoDup l -> l_remove t l = filter (fun x => negb (x =? t)%Z) l.
Proof.
  induction 1 as [|x l Hx Hl IH]; simpl; auto. destruct (Z.eqb_spec x t); simpl; [|congruence].
  subst. clear IH. induction l as [|y l IH]; simpl; auto. simpl in Hx. inversion Hl; subst.
  destruct (Z.eqb_spec y t); simpl; [subst; tauto|]. f_equal. apply IH; auto.
Qed.
Lemma filter_map_tok f A : filter f (map e_tok A) = map e_tok (filter (fun e => f (e_tok e)) A).
Proof. induction A as [|e A IH]; simpl; auto. destruct (f (e_tok e)); simpl; congruence. Qed.
Lemma find_in A e : NoDup (map e_tok A) -> In e A -> find (fun x => (e_tok x =? e_tok e)%Z) A = Some e.
Proof.
  induction A as [|x A IH]; [contradiction|]. simpl. intros H I. inversion H; subst.
  destruct I as [->|I]; [now rewrite Z.eqb_refl|].
  destruct (Z.eqb_spec (e_tok x) (e_tok e)) as [E|E]; auto.
  exfalso. apply H2. rewrite E. now apply in_map.
Qed.
Lemma nodup_filter (f : entry T -> bool) A : NoDup (map e_tok A) -> NoDup (map e_tok (filter f A)).
Proof.
  induction A as [|x A IH]; simpl; auto. intros H. inversion H; subst. destruct (f x); simpl; auto.
  constructor; auto. intros I. apply H2. apply in_map_iff in I. destruct I as [y [E I]].
  apply filter_In in I. rewrite <- E. apply in_map. tauto.
Qed.

Lemma refines_get r s e : refines r s -> In e (fst s) -> d_get (r_data r) (e_tok e) = Some (data_of e).
Proof. intros R I. rewrite (rf_data _ _ R), d_get_map, find_in; auto. apply R. Qed.

Lemma refines_init n : (0 <= n)%Z -> refines (reg_init n) ([], n).
Proof. intros H. constructor; simpl; auto. constructor. contradiction. Qed.

Lemma refines_del r A n f :
  refines r (A, n) ->
  refines (mkR (map (fun e => (e_tok e, data_of e)) (filter f A)) (map e_tok (order (filter f A))) (r_counter r)) (filter f A, n).
Proof.
  intros R. constructor; cbn [fst snd r_counter r_tokens r_data]; auto; try apply R.
  - apply nodup_filter, R.
  - intros e I. apply filter_In in I. now apply R.
Qed.

Lemma refines_remtok r A n t : refines r (A, n) ->
  refines (remove_token r t) (filter (fun e => negb (e_tok e =? t)%Z) A, n).
Proof.
  intros R. unfold remove_token. rewrite (rf_data _ _ R), d_get_map. cbn [fst].
  destruct (find _ A) as [e|] eqn:F.
  - rewrite d_del_map, (rf_tokens _ _ R). cbn [fst]. rewrite l_remove_filter by (apply nodup_order, R).
    rewrite filter_map_tok, filter_order. now apply refines_del.
  - replace (filter _ A) with A; auto. clear R. induction A as [|x A IH]; simpl in *; auto.
    destruct (e_tok x =? t)%Z; [discriminate|]. simpl. f_equal. auto.
Qed.

Lemma refines_remobj_loop alive o ts : forall r A n, refines r (A, n) -> NoDup ts -> incl ts (map e_tok A) ->
  exists r', remove_obj_loop alive o ts r = (r', Ok tt) /\
    refines r' (filter (fun e => negb (drops alive o e && existsb (Z.eqb (e_tok e)) ts)) A, n).
Proof.
  induction ts as [|t ts IH]; intros r A n R ND IN; simpl.
  - exists r. split; auto. replace (filter _ A) with A; auto. clear. induction A; simpl; auto.
    rewrite andb_false_r. simpl. now f_equal.
  - inversion ND; subst. assert (I : In t (map e_tok A)) by (apply IN; simpl; auto).
    apply in_map_iff in I. destruct I as [e [E I]]. subst t.
    rewrite (refines_get _ _ _ R I). cbn [data_of o_ref]. fold (drops alive o e).
    destruct (drops alive o e) eqn:D.
    + rewrite (rf_data _ _ R), d_del_map, (rf_tokens _ _ R). cbn [fst]. rewrite l_remove_filter by (apply nodup_order, R).
      rewrite filter_map_tok, filter_order.
      destruct (IH _ _ n (refines_del r A n (fun x => negb (e_tok x =? e_tok e)%Z) R) H2) as [r' [E' R']].
      { intros x Hx. assert (Hx' : In x (map e_tok A)) by (apply IN; simpl; auto).
        apply in_map_iff in Hx'. destruct Hx' as [y [<- Hy]]. apply in_map. apply filter_In. split; auto.
        destruct (Z.eqb_spec (e_tok y) (e_tok e)) as [Q|Q]; auto. rewrite Q in Hx. contradiction. }
      exists r'. split; auto. revert R'. match goal with |- refines _ (?a, _) -> refines _ (?b, _) => replace b with a; auto end.
      assert (ND' : NoDup (map e_tok A)) by apply R. clear -D I ND'.
      assert (HH : forall x, In x A -> e_tok x = e_tok e -> drops alive o x = true).
      { intros x Hx Q. pose proof (find_in A e ND' I) as F1. pose proof (find_in A x ND' Hx) as F2. rewrite Q in F2. congruence. }
      clear I ND'. induction A as [|x A IH]; simpl; auto.
      destruct (Z.eqb_spec (e_tok x) (e_tok e)) as [Q|Q]; simpl.
      * rewrite (HH x) by (simpl; auto). simpl. apply IH. intros; apply HH; simpl; auto.
      * rewrite IH by (intros; apply HH; simpl; auto). reflexivity.
    + destruct (IH r A n R H2) as [r' [E' R']]; [intros x Hx; apply IN; simpl; auto|].
      exists r'. split; auto. revert R'. match goal with |- refines _ (?a, _) -> refines _ (?b, _) => replace b with a; auto end.
      assert (ND' : NoDup (map e_tok A)) by apply R. clear -D I ND'.
      apply filter_ext_in. intros x Hx. f_equal. destruct (Z.eqb_spec (e_tok x) (e_tok e)) as [Q|Q]; auto.
      pose proof (find_in A e ND' I) as F1. pose proof (find_in A x ND' Hx) as F2. rewrite Q, F1 in F2. injection F2 as <-.
      now rewrite D.
Qed.

Lemma refines_remobj r A n alive o : refines r (A, n) ->
  exists r', remove_obj alive r o = (r', Ok tt) /\ refines r' (filter (fun e => negb (drops alive o e)) A, n).
Proof.
  intros R. unfold remove_obj. destruct (refines_remobj_loop alive o (r_tokens r) r A n R) as [r' [E R']].
  - rewrite (rf_tokens _ _ R). apply nodup_order, R.
  - intros x. rewrite (rf_tokens _ _ R). cbn [fst]. apply Permutation_in, Permutation_map, order_perm.
  - exists r'. split; auto. revert R'. match goal with |- refines _ (?a, _) -> refines _ (?b, _) => replace b with a; auto end.
    apply filter_ext_in. intros x Hx. replace (existsb _ _) with true; [now rewrite andb_true_r|].
    symmetry. apply existsb_exists. exists (e_tok x). split; [|apply Z.eqb_refl].
    rewrite (rf_tokens _ _ R). apply in_map. now apply in_order.
Qed.

Lemma refines_new r A n (p : bool) obj dom b e : refines r (A, n) ->
  refines (mkR (r_data r ++ [((r_counter r + 1)%Z, mkO obj (i_parse dom) b e (takes_interval b) (takes_interval e))])
               (if p then (r_counter r + 1)%Z :: r_tokens r else r_tokens r ++ [(r_counter r + 1)%Z]) (r_counter r + 1)%Z)
          (A ++ [mkE (n + 1) p obj (i_parse dom) b e], (n + 1)%Z).
Proof.
  intros R. pose proof (rf_counter _ _ R) as C. pose proof (rf_pos _ _ R) as P. cbn [fst snd] in *.
  constructor; cbn [fst snd r_counter r_tokens r_data]; try lia.
  - rewrite C, (rf_tokens _ _ R). unfold order. rewrite !filter_app. cbn [fst snd filter e_prio].
    destruct p; simpl; rewrite ?app_nil_r.
    + rewrite rev_app_distr. reflexivity.
    + rewrite app_assoc, !map_app. reflexivity.
  - rewrite (rf_data _ _ R), map_app, C. reflexivity.
  - rewrite map_app. simpl.
    eapply Permutation_NoDup; [apply Permutation_app_comm|]. simpl. constructor; [|apply R].
    intros I. apply in_map_iff in I. destruct I as [x [Q I]]. apply (rf_range _ _ R) in I. cbn [snd] in I. lia.
  - intros x I. apply in_app_iff in I. destruct I as [I|[<-|[]]]; simpl; [|lia].
    apply (rf_range _ _ R) in I. cbn [snd] in I. lia.
Qed.

Lemma refines_bump r A n m : refines r (A, n) -> (n <= m)%Z -> refines (mkR (r_data r) (r_tokens r) m) (A, m).
Proof.
  intros R L. pose proof (rf_pos _ _ R). cbn [snd] in *. constructor; cbn [fst snd r_counter r_tokens r_data]; try apply R; try lia; auto.
  intros e I. apply (rf_range _ _ R) in I. cbn [snd] in I. lia.
Qed.

Theorem refines_step r s o : refines r s -> snd (code_step r o) = snd (spec_step s o) /\
  refines (fst (code_step r o)) (fst (spec_step s o)).
Proof.
  destruct s as [A n]. intros R. pose proof (rf_counter _ _ R) as C. cbn [snd] in C.
  destruct o as [obj dom b e a p|t|alive ob|k]; cbn [code_step spec_step].
  - unfold add_observer. destruct b as [b|], e as [e|]; auto.
    + destruct obj as [obj|]; [|destruct a]; cbn [fst snd]; rewrite ?C; split; auto;
      try (pose proof (refines_new r A n p (Some obj) dom (Some b) (Some e) R) as K; rewrite C in K; exact K);
      try (pose proof (refines_new r A n p None dom (Some b) (Some e) R) as K; rewrite C in K; exact K).
      apply refines_bump with n; [exact R|lia].
    + destruct obj as [obj|]; [|destruct a]; cbn [fst snd]; rewrite ?C; split; auto;
      try (pose proof (refines_new r A n p (Some obj) dom (Some b) None R) as K; rewrite C in K; exact K);
      try (pose proof (refines_new r A n p None dom (Some b) None R) as K; rewrite C in K; exact K).
      apply refines_bump with n; [exact R|lia].
    + destruct obj as [obj|]; [|destruct a]; cbn [fst snd]; rewrite ?C; split; auto;
      try (pose proof (refines_new r A n p (Some obj) dom None (Some e) R) as K; rewrite C in K; exact K);
      try (pose proof (refines_new r A n p None dom None (Some e) R) as K; rewrite C in K; exact K).
      apply refines_bump with n; [exact R|lia].
    + destruct obj, a; split; auto.
  - split; auto. now apply refines_remtok.
  - destruct (refines_remobj r A n alive ob R) as [r' [E R']]. rewrite E. simpl. auto.
  - cbn [fst snd]. split; auto. rewrite C. apply refines_bump with n; [exact R|lia].
Qed.

Theorem refines_run l : forall r s, refines r s -> snd (run code_step r l) = snd (run spec_step s l) /\
  refines (fst (run code_step r l)) (fst (run spec_step s l)).
Proof.
  induction l as [|o l IH]; intros r s R; simpl; auto.
  destruct (refines_step r s o R) as [E R']. destruct (code_step r o) as [r1 q1], (spec_step s o) as [s1 q2]. simpl in *.
  destruct (IH r1 s1 R') as [E2 R2]. destruct (run code_step r1 l), (run spec_step s1 l). simpl in *. split; congruence.
Qed.

End Facts.
