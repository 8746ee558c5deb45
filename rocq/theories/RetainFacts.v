(** Facts about Retain.v: what the program can reach, in every program. *)
From Coq Require Import List ZArith Bool Lia.
From Verif Require Import Base Num Interval Curve Observer ObserverSpec ObserverFacts Lifetime LifetimeFacts Retain.
Import ListNotations.
Open Scope bool_scope.

Section Facts.
Context {T : Type} {N : Num T}.
Notation mem := (mem T).
Implicit Types m : mem.

Lemma put_same {A} (f : nat -> A) i a : put f i a i = a. Proof. unfold put. rewrite Nat.eqb_refl. reflexivity. Qed.
Lemma put_other {A} (f : nat -> A) i a j : j <> i -> put f i a j = f j.
Proof. intros H. unfold put. destruct (Nat.eqb_spec j i); [contradiction|reflexivity]. Qed.
Lemma put_all_in f ts l t : In t ts -> put_all f ts l t = l.
Proof. intros I. unfold put_all. replace (existsb (Z.eqb t) ts) with true; [reflexivity|]. symmetry. apply existsb_exists. exists t. split; [assumption|apply Z.eqb_refl]. Qed.
Lemma put_all_out f ts l t : ~ In t ts -> put_all f ts l t = f t.
Proof.
  intros I. unfold put_all. destruct (existsb (Z.eqb t) ts) eqn:E; [|reflexivity]. exfalso. apply I. apply existsb_exists in E. destruct E as (x & X & Y). apply Z.eqb_eq in Y. subst. assumption.
Qed.
Lemma remove1_in i l j : In j (remove1 i l) -> In j l.
Proof. induction l as [|a l IH]; cbn; [tauto|]. destruct (Nat.eqb_spec a i); cbn; tauto. Qed.
Lemma in_combine_of {A B} (l : list A) (r : list B) a : length r = length l -> In a l -> exists b, In (a, b) (combine l r).
Proof.
  revert r. induction l as [|x l IH]; intros [|y r] L I; try discriminate L; [destruct I|]. destruct I as [->|I]; [exists y; left; reflexivity|].
  destruct (IH r (f_equal pred L) I) as (b & K). exists b. right. exact K.
Qed.

Record inv (m : mem) : Prop := mkInv {
  v_good : good (m_heap m);
  v_vars : forall i, In i (m_vars m) -> (i < m_next m)%nat;
  v_kind : forall i o ts, m_kind m i = Some (o, ts) -> (i < m_next m)%nat /\ (forall c, In c (attrs o) <-> In c (sources o)) /\
             (forall c, In c (attrs o) -> (c < m_next m)%nat) /\ length ts = length (sources o) /\
             forall t, In t ts -> (t <= h_counter (m_heap m))%Z /\ m_holds m t = [i];
  v_extra : forall i j, In j (m_extra m i) -> (j < m_next m)%nat;
  v_reg : forall c t, registered_at m c t -> (c < m_next m)%nat /\ forall j, In j (m_holds m t) -> (j < m_next m)%nat;
  v_auto : forall c t i, In (c, t, i) (m_autos m) -> (t <= h_counter (m_heap m))%Z /\ forall j o ts, m_kind m j = Some (o, ts) -> ~ In t ts;
  v_keep : forall i o ts c t, m_kind m i = Some (o, ts) -> m_dead m i = false -> In (c, t) (combine (sources o) ts) -> reach m c -> registered_at m c t;
  v_dead : forall i, m_dead m i = true -> (i < m_next m)%nat /\ ~ reach m i }.

Lemma reach_small m i : inv m -> reach m i -> (i < m_next m)%nat.
Proof.
  intros I R. destruct R as [i V|i j _ E]; [exact (v_vars m I _ V)|]. destruct E as [o ts K A|A|t A B].
  - destruct (v_kind m I _ _ _ K) as (_ & _ & C & _). exact (C _ A).
  - exact (v_extra m I _ _ A).
  - exact (proj2 (v_reg m I _ _ A) _ B).
Qed.
Lemma token_old m c t : inv m -> registered_at m c t -> (t <= h_counter (m_heap m))%Z.
Proof. intros I R. destruct (v_good m I) as [A OK]. apply (sub_range _ A c t OK R). Qed.

Lemma reach_within (m' : mem) (P : nat -> Prop) :
  (forall i, In i (m_vars m') -> P i) -> (forall i j, P i -> refers m' i j -> P j) -> forall x, reach m' x -> P x.
Proof. intros V E x R. induction R as [i H|i j _ IH H]; [exact (V _ H)|exact (E _ _ IH H)]. Qed.
Lemma closed m i j : reach m i -> refers m i j -> reach m j. Proof. intros A B. exact (re_ref m i j A B). Qed.

(** the sources and the derived curves *)
Lemma holds_on m i o ts c : inv m -> m_kind m i = Some (o, ts) -> m_dead m i = false -> In c (sources o) -> reach m c -> reach m i.
Proof.
  intros I K D S R. destruct (v_kind m I _ _ _ K) as (_ & _ & _ & L & H). destruct (in_combine_of _ _ c L S) as (t & C).
  apply (re_ref m c i R). apply (rf_callback m c i t); [exact (v_keep m I _ _ _ _ _ K D C R)|].
  rewrite (proj2 (H t (in_combine_r _ _ _ _ C))). left. reflexivity.
Qed.
Lemma holds_back m i o ts c : inv m -> m_kind m i = Some (o, ts) -> In c (sources o) -> reach m i -> reach m c.
Proof.
  intros I K S R. apply (re_ref m i c R). destruct (v_kind m I _ _ _ K) as (_ & E & _). apply (rf_attr m i c o ts K). apply E. exact S.
Qed.

Lemma inv0 : inv (mem0 (T := T)).
Proof.
  constructor; cbn; intros; try discriminate; try contradiction. exact good_init.
Qed.

Lemma new_reach m ex x : inv m -> Forall (reach m) ex -> reach (gstep m (GNew ex)) x -> reach m x \/ x = m_next m.
Proof.
  intros I F. apply (reach_within (gstep m (GNew ex)) (fun x => reach m x \/ x = m_next m)).
  - cbn. intros i [<-|V]; [right; reflexivity|left; apply re_var; exact V].
  - intros i j H E. destruct (Nat.eq_dec i (m_next m)) as [Q|NE].
    + destruct E as [o ts K A|A|t A B]; cbn in *.
      * exfalso. apply (v_kind m I) in K. lia.
      * left. subst i. rewrite put_same in A. exact (proj1 (Forall_forall _ _) F _ A).
      * exfalso. apply (v_reg m I) in A. lia.
    + destruct H as [H|H]; [|contradiction]. left. apply (re_ref m i j H). destruct E as [o ts K A|A|t A B]; cbn in *.
      * exact (rf_attr m i j o ts K A).
      * apply rf_extra. rewrite put_other in A by exact NE. exact A.
      * exact (rf_callback m i j t A B).
Qed.
Lemma inv_new m ex : inv m -> Forall (reach m) ex -> inv (gstep m (GNew ex)).
Proof.
  intros I F. pose proof (fun x => new_reach m ex x I F) as NR.
  constructor; cbn [gstep m_heap m_next m_kind m_extra m_holds m_autos m_vars m_dead].
  - exact (v_good _ I).
  - intros i [<-|V]; [lia|]. apply (v_vars m I) in V. lia.
  - intros i o ts K. destruct (v_kind m I _ _ _ K) as (A & B & C & D & H). split; [lia|]. split; [exact B|]. split; [intros c Q; specialize (C c Q); lia|]. split; assumption.
  - intros i j J. destruct (Nat.eq_dec i (m_next m)) as [->|NE].
    + rewrite put_same in J. pose proof (reach_small m j I (proj1 (Forall_forall _ _) F _ J)). lia.
    + rewrite put_other in J by exact NE. apply (v_extra m I) in J. lia.
  - intros c t R. destruct (v_reg m I _ _ R) as (A & B). split; [lia|]. intros j J. specialize (B j J). lia.
  - exact (v_auto m I).
  - intros i o ts c t K D C R. destruct (NR c R) as [R'|R']; [exact (v_keep m I _ _ _ _ _ K D C R')|].
    exfalso. destruct (v_kind m I _ _ _ K) as (_ & E & L & _). apply in_combine_l in C. apply E in C. specialize (L _ C). lia.
  - intros i D. destruct (v_dead m I _ D) as (A & B). split; [lia|]. intros R. destruct (NR i R) as [R'|R']; [exact (B R')|lia].
Qed.

Lemma derive_reach m o ex x : inv m -> Forall (reach m) (sources o) -> (forall c, In c (attrs o) <-> In c (sources o)) -> Forall (reach m) ex ->
  reach (gstep m (GDerive o ex)) x -> reach m x \/ x = m_next m.
Proof.
  intros I FS AT F. destruct (subscribe_spec o (m_heap m) (v_good m I)) as (_ & _ & _ & NEW & _ & SUB).
  apply (reach_within (gstep m (GDerive o ex)) (fun x => reach m x \/ x = m_next m)).
  - cbn. intros i [<-|V]; [right; reflexivity|left; apply re_var; exact V].
  - intros i j H E. destruct E as [o' ts K A|A|t A B]; cbn in *.
    + destruct (Nat.eq_dec i (m_next m)) as [->|NE].
      * rewrite put_same in K. injection K as <- _. left. apply (proj1 (Forall_forall _ _) FS). apply AT. exact A.
      * rewrite put_other in K by exact NE. destruct H as [H|H]; [|contradiction]. left. exact (re_ref m i j H (rf_attr m i j o' ts K A)).
    + destruct (Nat.eq_dec i (m_next m)) as [->|NE].
      * rewrite put_same in A. left. exact (proj1 (Forall_forall _ _) F _ A).
      * rewrite put_other in A by exact NE. destruct H as [H|H]; [|contradiction]. left. exact (re_ref m i j H (rf_extra m i j A)).
    + unfold registered_at in A. cbn in A. apply SUB in A. destruct A as [A|A].
      * pose proof (token_old m i t I A) as TO. rewrite put_all_out in B by (intros X; specialize (NEW t X); lia).
        destruct H as [H| ->]; [left; exact (re_ref m i j H (rf_callback m i j t A B))|]. apply (v_reg m I) in A. lia.
      * apply in_combine_r in A. rewrite put_all_in in B by exact A. destruct B as [<-|[]]. right. reflexivity.
Qed.
Lemma inv_derive m o ex : inv m -> Forall (reach m) (sources o) -> (forall c, In c (attrs o) <-> In c (sources o)) -> Forall (reach m) ex -> inv (gstep m (GDerive o ex)).
Proof.
  intros I FS AT F. pose proof (fun x => derive_reach m o ex x I FS AT F) as NR.
  destruct (subscribe_spec o (m_heap m) (v_good m I)) as (G & LEN & MON & NEW & _ & SUB).
  assert (SM : forall c, In c (sources o) -> (c < m_next m)%nat) by (intros c C; apply (reach_small m c I); exact (proj1 (Forall_forall _ _) FS _ C)).
  assert (OLD : forall t, (t <= h_counter (m_heap m))%Z -> ~ In t (snd (subscribe (m_heap m) o))) by (intros t L X; specialize (NEW t X); lia).
  constructor; cbn [gstep m_heap m_next m_kind m_extra m_holds m_autos m_vars m_dead].
  - exact G.
  - intros i [<-|V]; [lia|]. apply (v_vars m I) in V. lia.
  - intros i o' ts K. destruct (Nat.eq_dec i (m_next m)) as [->|NE].
    + rewrite put_same in K. injection K as <- <-. split; [lia|]. split; [exact AT|]. split; [intros c C; apply AT, SM in C; lia|]. split; [exact LEN|].
      intros t J. specialize (NEW t J). split; [lia|]. rewrite put_all_in by exact J. reflexivity.
    + rewrite put_other in K by exact NE. destruct (v_kind m I _ _ _ K) as (A & B & C & D & H). split; [lia|]. split; [exact B|]. split; [intros c Q; specialize (C c Q); lia|]. split; [exact D|].
      intros t J. destruct (H t J) as (L & E). split; [lia|]. rewrite put_all_out by (apply OLD; exact L). exact E.
  - intros i j J. destruct (Nat.eq_dec i (m_next m)) as [->|NE].
    + rewrite put_same in J. pose proof (reach_small m j I (proj1 (Forall_forall _ _) F _ J)). lia.
    + rewrite put_other in J by exact NE. apply (v_extra m I) in J. lia.
  - intros c t R. unfold registered_at in R. cbn in R. apply SUB in R. destruct R as [R|R].
    + pose proof (token_old m c t I R) as TO. rewrite put_all_out by (apply OLD; exact TO). destruct (v_reg m I _ _ R) as (A & B). split; [lia|]. intros j J. specialize (B j J). lia.
    + rewrite put_all_in by exact (in_combine_r _ _ _ _ R). apply in_combine_l, SM in R. split; [lia|]. intros j [<-|[]]. lia.
  - intros c t i J. destruct (v_auto m I _ _ _ J) as (A & B). split; [lia|]. intros j o' ts K. destruct (Nat.eq_dec j (m_next m)) as [->|NE].
    + rewrite put_same in K. injection K as <- <-. apply OLD. exact A.
    + rewrite put_other in K by exact NE. exact (B _ _ _ K).
  - intros i o' ts c t K D C R. unfold registered_at. cbn. apply SUB. destruct (Nat.eq_dec i (m_next m)) as [->|NE].
    + rewrite put_same in K. injection K as <- <-. right. exact C.
    + rewrite put_other in K by exact NE. left. destruct (NR c R) as [R'|R']; [exact (v_keep m I _ _ _ _ _ K D C R')|].
      exfalso. destruct (v_kind m I _ _ _ K) as (_ & E & L & _). apply in_combine_l in C. apply E in C. specialize (L _ C). lia.
  - intros i D. destruct (v_dead m I _ D) as (A & B). split; [lia|]. intros R. destruct (NR i R) as [R'|R']; [exact (B R')|lia].
Qed.

(** the other steps make nothing reachable *)
Lemma inv_less m g : inv m -> m_next (gstep m g) = m_next m -> m_kind (gstep m g) = m_kind m -> good (m_heap (gstep m g)) ->
  (h_counter (m_heap m) <= h_counter (m_heap (gstep m g)))%Z ->
  (forall t, (t <= h_counter (m_heap m))%Z -> m_holds (gstep m g) t = m_holds m t) ->
  (forall i, In i (m_vars (gstep m g)) -> reach m i) ->
  (forall i j, In j (m_extra (gstep m g) i) -> In j (m_extra m i) \/ reach m j) ->
  (forall c t, registered_at (gstep m g) c t -> registered_at m c t \/ (reach m c /\ forall j, In j (m_holds (gstep m g) t) -> reach m j)) ->
  (forall c t i, In (c, t, i) (m_autos (gstep m g)) -> In (c, t, i) (m_autos m) \/ (h_counter (m_heap m) < t <= h_counter (m_heap (gstep m g)))%Z) ->
  (forall i o ts c t, m_kind m i = Some (o, ts) -> m_dead (gstep m g) i = false -> m_dead m i = false /\ (In (c, t) (combine (sources o) ts) -> reach m c -> registered_at m c t -> registered_at (gstep m g) c t)) ->
  (forall i, m_dead (gstep m g) i = true -> m_dead m i = true \/ ((i < m_next m)%nat /\ ~ reach m i)) ->
  inv (gstep m g) /\ forall x, reach (gstep m g) x -> reach m x.
Proof.
  intros I NX KD G MON HO VS EX RG AU KP DE.
  assert (NR : forall x, reach (gstep m g) x -> reach m x).
  { apply (reach_within (gstep m g) (reach m)); [exact VS|]. intros i j H E. destruct E as [o ts K A|A|t A B].
    - rewrite KD in K. exact (re_ref m i j H (rf_attr m i j o ts K A)).
    - destruct (EX _ _ A) as [Q|Q]; [exact (re_ref m i j H (rf_extra m i j Q))|exact Q].
    - destruct (RG _ _ A) as [Q|[_ Q]]; [|exact (Q _ B)]. rewrite HO in B by exact (token_old m i t I Q). exact (re_ref m i j H (rf_callback m i j t Q B)). }
  split; [|exact NR]. constructor; rewrite ?NX, ?KD.
  - exact G.
  - intros i V. exact (reach_small m i I (VS i V)).
  - intros i o ts K. destruct (v_kind m I _ _ _ K) as (A & B & C & D & H). split; [exact A|]. split; [exact B|]. split; [exact C|]. split; [exact D|].
    intros t J. destruct (H t J) as (L & E). split; [lia|]. rewrite HO by exact L. exact E.
  - intros i j J. destruct (EX _ _ J) as [Q|Q]; [exact (v_extra m I _ _ Q)|exact (reach_small m j I Q)].
  - intros c t R. destruct (RG _ _ R) as [Q|[Q1 Q2]].
    + destruct (v_reg m I _ _ Q) as (A & B). split; [exact A|]. rewrite HO by exact (token_old m c t I Q). exact B.
    + split; [exact (reach_small m c I Q1)|]. intros j J. exact (reach_small m j I (Q2 j J)).
  - intros c t i J. destruct (AU _ _ _ J) as [Q|Q].
    + destruct (v_auto m I _ _ _ Q) as (A & B). split; [lia|exact B].
    + split; [lia|]. intros j o ts K X. destruct (v_kind m I _ _ _ K) as (_ & _ & _ & _ & H). destruct (H t X). lia.
  - intros i o ts c t K D C R. destruct (KP i o ts c t K D) as (D' & Q). apply Q; [exact C|exact (NR c R)|]. exact (v_keep m I _ _ _ _ _ K D' C (NR c R)).
  - intros i D. destruct (DE i D) as [Q|[Q1 Q2]].
    + destruct (v_dead m I _ Q) as (A & B). split; [exact A|]. intros R. exact (B (NR i R)).
    + split; [exact Q1|]. intros R. exact (Q2 (NR i R)).
Qed.

Lemma observe_eq (h : heap T) obj c auto p : match obj with Some _ => True | None => auto = false end -> observe1 h obj c auto p = subscribe1 h obj c p.
Proof. unfold observe1, subscribe1. destruct obj; intros H; [destruct auto; reflexivity|subst; reflexivity]. Qed.

(** finalising *)
Lemma final_good alive (h : heap T) o ts : good h -> good (finalise alive h o ts).
Proof.
  intros G. destruct o as [c|fs us|c ref|me c fn]; cbn [finalise]; try apply unsubscribe_spec; try exact G. apply good_op. exact G.
Qed.
Lemma final_only alive (h : heap T) o ts c t : good h -> subscribed (finalise alive h o ts) c t -> subscribed h c t.
Proof.
  intros G. destruct o as [c0|fs us|c0 ref|me c0 fn]; cbn [finalise]; intros S; try (apply (unsubscribe_spec _ h G) in S; exact (proj1 S)). apply op_remove_obj in S; [exact (proj1 S)|exact G].
Qed.
Lemma final_else alive (h : heap T) o ts c t : good h -> ~ In c (attrs o) -> (subscribed (finalise alive h o ts) c t <-> subscribed h c t).
Proof.
  intros G NI. split; [apply final_only; exact G|]. intros S.
  destruct o as [c0|fs us|c0 ref|me c0 fn]; cbn [finalise attrs] in *; try (apply (unsubscribe_spec _ h G); split; [exact S|intros X; apply in_combine_l in X; cbn in *; tauto]).
  apply op_else; [|exact S]. intros ->. apply NI. left. reflexivity.
Qed.

Lemma sources_hidden m i o ts c : inv m -> m_kind m i = Some (o, ts) -> m_dead m i = false -> ~ reach m i -> reach m c -> ~ In c (attrs o).
Proof.
  intros I K D NR R A. apply NR. apply (holds_on m i o ts c I K D); [|exact R]. apply (v_kind m I _ _ _ K). exact A.
Qed.
(** the registries after finalising [i] *)
Lemma final_regs m alive i : inv m -> ~ reach m i -> m_dead m i = false -> 
  good (m_heap (gstep m (GFinal alive i))) /\
  (forall c t, registered_at (gstep m (GFinal alive i)) c t -> registered_at m c t) /\
  (forall c t, reach m c -> (registered_at (gstep m (GFinal alive i)) c t <-> registered_at m c t /\ ~ In (c, t, i) (m_autos m))).
Proof.
  intros I NR D. set (h1 := match m_kind m i with Some (o, ts) => finalise alive (m_heap m) o ts | None => m_heap m end).
  assert (G1 : good h1) by (unfold h1; destruct (m_kind m i) as [[o ts]|]; [apply final_good|]; exact (v_good m I)).
  assert (O1 : forall c t, subscribed h1 c t -> registered_at m c t) by (intros c t; unfold h1; destruct (m_kind m i) as [[o ts]|]; [apply final_only; exact (v_good m I)|exact (fun H => H)]).
  assert (E1 : forall c t, reach m c -> (subscribed h1 c t <-> registered_at m c t)).
  { intros c t R. unfold h1. destruct (m_kind m i) as [[o ts]|] eqn:K; [|apply iff_refl]. apply final_else; [exact (v_good m I)|]. exact (sources_hidden m i o ts c I K D NR R). }
  destruct (unsubscribe_spec (map fst (filter (fun a => (snd a =? i)%nat) (m_autos m))) h1 G1) as [G2 S2].
  split; [exact G2|]. split; [intros c t R; apply O1; apply S2 in R; exact (proj1 R)|].
  intros c t R. assert (Q : In (c, t) (map fst (filter (fun a => (snd a =? i)%nat) (m_autos m))) <-> In (c, t, i) (m_autos m)).
  { rewrite in_map_iff. split.
    - intros ([p j] & E & J). cbn in E. subst p. apply filter_In in J. destruct J as [J1 J2]. apply Nat.eqb_eq in J2. cbn in J2. subst j. exact J1.
    - intros J. exists (c, t, i). split; [reflexivity|]. apply filter_In. split; [exact J|]. apply Nat.eqb_refl. }
  split.
  - intros X. apply S2 in X. destruct X as [X1 X2]. split; [apply E1; assumption|]. intros J. apply X2, Q, J.
  - intros [X1 X2]. apply S2. split; [apply E1; assumption|]. intros J. apply X2, Q, J.
Qed.
Lemma counter_remove (h : heap T) c t : good h -> h_counter (fst (h_op h c (RRemTok t))) = h_counter h.
Proof. intros [A OK]. destruct (op_refines h A c (RRemTok t) OK) as (_ & _ & _ & ->). reflexivity. Qed.
Lemma counter_unsub l : forall h : heap T, good h -> (h_counter h <= h_counter (unsubscribe h l))%Z.
Proof.
  induction l as [|[c t] l IH]; intros h G; cbn [unsubscribe]; [lia|]. pose proof (counter_op h c (RRemTok t) G). specialize (IH _ (good_op h c (RRemTok t) G)). lia.
Qed.
Lemma counter_final alive (h : heap T) o ts : good h -> (h_counter h <= h_counter (finalise alive h o ts))%Z.
Proof. intros G. destruct o; cbn [finalise]; try apply counter_unsub; try exact G. apply counter_op. exact G. Qed.

Lemma less_more m m' : (inv m' /\ forall x, reach m' x -> reach m x) -> inv m' /\ forall x, reach m' x -> reach m x \/ x = m_next m.
Proof. intros [A B]. split; [exact A|]. intros x R. left. exact (B x R). Qed.
Lemma step_facts m g : inv m -> allowed m g -> inv (gstep m g) /\ forall x, reach (gstep m g) x -> reach m x \/ x = m_next m.
Proof.
  intros I AL. assert (SELF : forall i, In i (m_vars m) -> reach m i) by (intros i V; apply re_var; exact V).
  destruct g as [ex|o ex|i|i|i ex|c obj holds auto p|c t|alive i]; cbn [allowed] in AL.
  - split; [exact (inv_new m ex I AL)|intros x; exact (new_reach m ex x I AL)].
  - destruct AL as (FS & FE & W). assert (AT : forall c, In c (attrs o) <-> In c (sources o)); [|split; [apply inv_derive; assumption|intros x; apply derive_reach; assumption]]. destruct o as [c|fs us|c ref|me c fn]; cbn [attrs sources]; try (intros; tauto). destruct W as [_ W]. intros c. symmetry. exact (W c).
  - apply less_more, (inv_less m (GBind i)); cbn; auto; try lia; try exact (v_good m I). intros j [<-|V]; [exact AL|exact (SELF j V)].
  - apply less_more, (inv_less m (GDrop i)); cbn; auto; try lia; try exact (v_good m I). intros j V. exact (SELF j (remove1_in _ _ _ V)).
  - destruct AL as [AR AF]. apply less_more, (inv_less m (GAssign i ex)); cbn; auto; try lia; try exact (v_good m I).
    intros a j J. destruct (Nat.eq_dec a i) as [->|NE]; [rewrite put_same in J; right; exact (proj1 (Forall_forall _ _) AF _ J)|]. rewrite put_other in J by exact NE. left. exact J.
  - destruct AL as (AR & AF & AO). assert (OE : observe1 (m_heap m) obj c auto p = subscribe1 (m_heap m) obj c p) by (apply observe_eq; destruct obj; [exact Logic.I|exact AO]).
    destruct (subscribe1_spec (m_heap m) obj c p (v_good m I)) as (ET & G & EC & SUB & _).
    apply less_more, (inv_less m (GObserve c obj holds auto p)); cbn [gstep m_heap m_next m_kind m_extra m_holds m_autos m_vars m_dead]; unfold registered_at; cbn [gstep m_heap m_holds]; rewrite ?OE; auto; try lia.
    + intros t L. apply put_all_out. intros [X|[]]. lia.
    + intros c' t R. apply SUB in R. destruct R as [R|[-> ->]]; [left; exact R|right]. split; [exact AR|]. intros j J. rewrite put_all_in in J by (left; reflexivity). exact (proj1 (Forall_forall _ _) AF _ J).
    + intros c' t i J. destruct obj as [ob|]; [|left; exact J]. destruct auto; [|left; exact J]. destruct J as [J|J]; [|left; exact J]. injection J as <- <- <-. right. lia.
    + intros i o ts c' t K D. split; [exact D|]. intros _ _ R. apply SUB. left. exact R.
  - destruct AL as [AR AT]. pose proof (v_good m I) as G. apply less_more, (inv_less m (GForget c t)); cbn [gstep m_heap m_next m_kind m_extra m_holds m_autos m_vars m_dead]; unfold registered_at; cbn [gstep m_heap m_holds]; auto.
    + apply good_op. exact G.
    + apply counter_op. exact G.
    + intros c' t' R. left. apply op_remove in R; [exact (proj1 R)|exact G].
    + intros i o ts c' t' K D. split; [exact D|]. intros C _ R. apply op_remove; [exact G|]. split; [exact R|]. intros [-> ->]. apply in_combine_r in C. exact (AT _ _ _ K C).
  - destruct AL as (NR & LT & D & AV). destruct (final_regs m alive i I NR D) as (G2 & O2 & E2). apply less_more, (inv_less m (GFinal alive i)); auto.
    + cbn. destruct (m_kind m i) as [[o ts]|].
      * apply Z.le_trans with (2 := counter_unsub _ _ (final_good alive _ o ts (v_good m I))). apply counter_final. exact (v_good m I).
      * apply counter_unsub. exact (v_good m I).
    + intros j o ts c t K D'. cbn in D'. destruct (Nat.eq_dec j i) as [->|NE]; [rewrite put_same in D'; discriminate D'|]. rewrite put_other in D' by exact NE. split; [exact D'|].
      intros C R S. apply E2; [exact R|]. split; [exact S|]. intros J. apply (v_auto m I) in J. apply in_combine_r in C. exact (proj2 J _ _ _ K C).
    + intros j D'. cbn in D'. destruct (Nat.eq_dec j i) as [->|NE]; [right; split; assumption|]. rewrite put_other in D' by exact NE. left. exact D'.
Qed.
Lemma inv_step m g : inv m -> allowed m g -> inv (gstep m g). Proof. intros I A. exact (proj1 (step_facts m g I A)). Qed.
Lemma program_inv m : program m -> inv m.
Proof. induction 1 as [|m g P IH A]; [exact inv0|exact (inv_step m g IH A)]. Qed.

(** * What follows *)
Lemma kept_alive m i o ts c : program m -> m_kind m i = Some (o, ts) -> m_dead m i = false -> In c (sources o) -> (reach m c <-> reach m i).
Proof. intros P K D S. pose proof (program_inv m P) as I. split; [exact (holds_on m i o ts c I K D S)|exact (holds_back m i o ts c I K S)]. Qed.
Lemma never_called m c t j : program m -> reach m c -> registered_at m c t -> In j (m_holds m t) -> m_dead m j = false.
Proof.
  intros P R S J. pose proof (program_inv m P) as I. destruct (m_dead m j) eqn:D; [|reflexivity]. exfalso. apply (v_dead m I j D). exact (re_ref m c j R (rf_callback m c j t S J)).
Qed.
Lemma unseen m alive i c t : program m -> allowed m (GFinal alive i) -> reach m c ->
  (registered_at (gstep m (GFinal alive i)) c t <-> registered_at m c t /\ ~ In (c, t, i) (m_autos m)).
Proof. intros P (NR & _ & D & _) R. exact (proj2 (proj2 (final_regs m alive i (program_inv m P) NR D)) c t R). Qed.
(** reachability is symmetric along derivations *)
Inductive linked m : nat -> nat -> Prop :=
| ln_refl i : linked m i i
| ln_step i j k : linked m i j ->
    ((exists o ts, m_kind m j = Some (o, ts) /\ m_dead m j = false /\ In k (sources o)) \/ (exists o ts, m_kind m k = Some (o, ts) /\ m_dead m k = false /\ In j (sources o))) -> linked m i k.
Lemma together m i j : program m -> linked m i j -> (reach m i <-> reach m j).
Proof.
  intros P L. induction L as [i|i j k _ IH H]; [apply iff_refl|]. apply (iff_trans IH). destruct H as [(o & ts & K & D & S)|(o & ts & K & D & S)].
  - apply iff_sym. exact (kept_alive m j o ts k P K D S).
  - exact (kept_alive m k o ts j P K D S).
Qed.

(** * Histories *)
Lemma kind_step m g i o ts : m_kind (gstep m g) i = Some (o, ts) -> m_kind m i = Some (o, ts) \/ (i = m_next m /\ exists ex, g = GDerive o ex).
Proof.
  destruct g; cbn; auto. destruct (Nat.eq_dec i (m_next m)) as [->|NE]; [rewrite put_same|rewrite put_other by exact NE; auto]. intros E. injection E as <- _. right. eauto.
Qed.
(** while a source is within reach, what was derived from it is not finalised *)
Lemma never_finalised m : program m -> forall i o ts c, m_kind m i = Some (o, ts) -> In c (sources o) -> reach m c -> m_dead m i = false.
Proof.
  induction 1 as [|m g P IH A]; [discriminate|]. intros i o ts c K S R. pose proof (program_inv m P) as I. pose proof (step_facts m g I A) as (I' & NR).
  destruct (m_dead (gstep m g) i) eqn:D; [|reflexivity]. exfalso.
  destruct (kind_step m g i o ts K) as [K'|(-> & ex & ->)].
  - assert (R' : reach m c).
    { destruct (NR c R) as [Q|Q]; [exact Q|]. exfalso. destruct (v_kind m I _ _ _ K') as (_ & E & L & _). apply E in S. specialize (L _ S). lia. }
    pose proof (IH i o ts c K' S R') as D'. destruct g; cbn in D; try congruence.
    destruct (Nat.eq_dec i i0) as [->|NE]; [|rewrite put_other in D by exact NE; congruence]. destruct A as (NR0 & _). apply NR0. exact (holds_on m i0 o ts c I K' D' S R').
  - cbn in D. destruct (v_dead m I _ D). lia.
Qed.
(** the number of callbacks of a curve within reach *)
Lemma at_least m c l : program m -> reach m c -> NoDup l -> (forall i, In i l -> exists o ts, m_kind m i = Some (o, ts) /\ In c (sources o)) ->
  (length l <= length (r_tokens (h_regs (m_heap m) c)))%nat.
Proof.
  intros P R ND H. pose proof (program_inv m P) as I.
  assert (Q : exists us, length us = length l /\ NoDup us /\ incl us (r_tokens (h_regs (m_heap m) c)) /\ forall t, In t us -> exists i, In i l /\ m_holds m t = [i]).
  { induction l as [|i l IH]; [exists []; repeat split; try constructor; intros t []|]. inversion ND as [|? ? NI ND']; subst.
    destruct (IH ND' (fun j J => H j (or_intror J))) as (us & L & N' & IN & HO).
    destruct (H i (or_introl eq_refl)) as (o & ts & K & S). destruct (v_kind m I _ _ _ K) as (_ & _ & _ & LE & HT). destruct (in_combine_of _ _ c LE S) as (t & C).
    pose proof (v_keep m I _ _ _ _ _ K (never_finalised m P i o ts c K S R) C R) as RG. pose proof (proj2 (HT t (in_combine_r _ _ _ _ C))) as HI.
    exists (t :: us). split; [cbn; congruence|]. split.
    { constructor; [|exact N']. intros X. destruct (HO t X) as (j & J & E). rewrite HI in E. injection E as ->. contradiction. }
    split. { intros x [<-|X]; [exact RG|exact (IN x X)]. }
    intros x [<-|X]; [exists i; split; [left; reflexivity|exact HI]|]. destruct (HO x X) as (j & J & E). exists j. split; [right; exact J|exact E]. }
  destruct Q as (us & L & N' & IN & _). rewrite <- L. exact (NoDup_incl_length N' IN).
Qed.

(** autoremoving registrations *)
Lemma step_old m g c t : inv m -> allowed m g -> (t <= h_counter (m_heap m))%Z -> registered_at (gstep m g) c t -> registered_at m c t.
Proof.
  intros I A L R. pose proof (v_good m I) as G. destruct g as [ex|o ex|i|i|i ex|c' obj holds auto p|c' t'|alive i]; try exact R.
  - unfold registered_at in R. cbn in R. destruct (subscribe_spec o (m_heap m) G) as (_ & _ & _ & NEW & _ & SUB). apply SUB in R. destruct R as [R|R]; [exact R|]. apply in_combine_r, NEW in R. lia.
  - unfold registered_at in R. cbn in R. destruct A as (_ & _ & AO). rewrite observe_eq in R by (destruct obj; [exact Logic.I|exact AO]).
    destruct (subscribe1_spec (m_heap m) obj c' p G) as (ET & _ & _ & SUB & _). apply SUB in R. destruct R as [R|[_ R]]; [exact R|lia].
  - unfold registered_at in R. cbn in R. apply op_remove in R; [exact (proj1 R)|exact G].
  - destruct A as (NR & _ & D & _). exact (proj1 (proj2 (final_regs m alive i I NR D)) c t R).
Qed.
Lemma auto_gone m : program m -> forall c t i, In (c, t, i) (m_autos m) -> m_dead m i = true -> ~ registered_at m c t.
Proof.
  induction 1 as [|m g P IH A]; [intros c t i []|]. intros c t i J D R. pose proof (program_inv m P) as I.
  assert (Q : In (c, t, i) (m_autos m) \/ m_dead m i = false /\ m_dead (gstep m g) i = m_dead m i).
  { destruct g; try (left; exact J). cbn in J. destruct obj as [ob|]; [|left; exact J]. destruct auto; [|left; exact J]. destruct J as [J|J]; [|left; exact J]. injection J as _ _ <-.
    right. split; [|reflexivity]. destruct A as (_ & _ & AO). destruct (m_dead m ob) eqn:E; [|reflexivity]. destruct (proj2 (v_dead m I ob E) AO). }
  destruct Q as [Q|[Q1 Q2]]; [|congruence]. pose proof (step_old m g c t I A (proj1 (v_auto m I _ _ _ Q)) R) as R'.
  destruct (m_dead m i) eqn:E; [exact (IH c t i Q E R')|]. destruct g; cbn in D; try congruence.
  destruct (Nat.eq_dec i i0) as [->|NE]; [|rewrite put_other in D by exact NE; congruence].
  unfold registered_at in R. cbn [gstep m_heap] in R. revert R.
  set (h1 := match m_kind m i0 with Some (o, ts) => finalise alive (m_heap m) o ts | None => m_heap m end). intros R.
  assert (G1 : good h1) by (unfold h1; destruct (m_kind m i0) as [[o ts]|]; [apply final_good|]; exact (v_good m I)).
  apply (unsubscribe_spec _ h1 G1) in R. apply (proj2 R). apply in_map_iff. exists (c, t, i0). split; [reflexivity|]. apply filter_In. split; [exact Q|apply Nat.eqb_refl].
Qed.
Lemma bound_method m c t i alive : program m -> reach m c -> registered_at m c t -> In i (m_holds m t) -> ~ allowed m (GFinal alive i).
Proof. intros P R S J (NR & _). apply NR. exact (re_ref m c i R (rf_callback m c i t S J)). Qed.
End Facts.
