(** Facts about Lifetime.v. *)
From Coq Require Import List ZArith Bool Lia.
From Verif Require Import Base Num Interval Curve Observer ObserverSpec ObserverFacts Lifetime.
Import ListNotations.
Open Scope bool_scope.

Section Facts.
Context {T : Type} {N : Num T}.
Notation heap := (heap T).

(** token [t] is registered with curve [c] *)
Definition subscribed (h : heap) (c : nat) (t : Z) : Prop := In t (r_tokens (h_regs h c)).
(** the object a registration belongs to *)
Definition subscriber (h : heap) (c : nat) (t : Z) : option nat :=
  match d_get (r_data (h_regs h c)) t with Some d => o_ref d | None => None end.

(** every registry refines some list of entries; tokens are not shared *)
Definition ok (h : heap) (A : nat -> list (entry T)) : Prop :=
  (forall c, refines (registry h c) (A c, h_counter h)) /\
  (forall c c' t, subscribed h c t -> subscribed h c' t -> c = c').

Lemma sub_entry h A c t : refines (registry h c) (A, h_counter h) -> (subscribed h c t <-> exists e, In e A /\ e_tok e = t).
Proof.
  intros R. unfold subscribed. pose proof (rf_tokens _ _ R) as E. cbn [registry r_tokens fst] in E. rewrite E.
  rewrite in_map_iff. split; intros (e & H1 & H2); exists e.
  - rewrite in_order in H2. auto.
  - split; [assumption|]. rewrite in_order. assumption.
Qed.
Lemma subscriber_entry h A c e : refines (registry h c) (A, h_counter h) -> In e A -> subscriber h c (e_tok e) = e_obj e.
Proof.
  intros R I. unfold subscriber. pose proof (refines_get _ _ e R I) as E. cbn [registry r_data] in E. rewrite E. reflexivity.
Qed.
Lemma sub_range h A c t : ok h A -> subscribed h c t -> (0 < t <= h_counter h)%Z.
Proof.
  intros [R _] S. apply (sub_entry h (A c)) in S; [|apply R]. destruct S as (e & I & <-). exact (rf_range _ _ (R c) e I).
Qed.
Lemma ok_init : ok heap0 (fun _ => []).
Proof.
  split. { intros c. apply (refines_init 0). lia. } intros c c' t S. destruct S.
Qed.

Lemma op_regs h c o c' : c' <> c -> h_regs (fst (h_op h c o)) c' = h_regs h c'.
Proof.
  intros H. unfold h_op. destruct (code_step (registry h c) o) as [r q]. cbn.
  destruct (Nat.eqb_spec c' c); [contradiction|reflexivity].
Qed.
Lemma op_here h c o : h_regs (fst (h_op h c o)) c = fst (code_step (registry h c) o) /\
  h_counter (fst (h_op h c o)) = r_counter (fst (code_step (registry h c) o)).
Proof.
  unfold h_op. destruct (code_step (registry h c) o) as [r q]. cbn. rewrite Nat.eqb_refl. auto.
Qed.
Lemma registry_eta (r : reg T) : mkR (r_data r) (r_tokens r) (r_counter r) = r. Proof. destruct r; reflexivity. Qed.

Lemma spec_counter (A : list (entry T)) n o : (n <= snd (fst (spec_step (A, n) o)))%Z.
Proof.
  destruct o as [obj dom b e a p|t|al ob|k]; cbn; try lia.
  destruct b, e, obj, a; cbn; lia.
Qed.

(** what an operation does to the entries *)
Lemma op_refines h A c o : ok h A -> refines (registry (fst (h_op h c o)) c) (fst (spec_step (A c, h_counter h) o)) /\
  (forall c', c' <> c -> refines (registry (fst (h_op h c o)) c') (A c', h_counter (fst (h_op h c o)))) /\
  snd (h_op h c o) = snd (spec_step (A c, h_counter h) o) /\
  h_counter (fst (h_op h c o)) = snd (fst (spec_step (A c, h_counter h) o)).
Proof.
  intros [R D]. destruct (refines_step _ _ o (R c)) as [Q S].
  destruct (op_here h c o) as [E1 E2].
  assert (C : h_counter (fst (h_op h c o)) = snd (fst (spec_step (A c, h_counter h) o))). { rewrite E2. apply (rf_counter _ _ S). }
  split. { unfold registry at 1. rewrite E1, E2, registry_eta. exact S. }
  split. { intros c' NE. unfold registry. rewrite op_regs by assumption.
    apply (refines_bump (registry h c') (A c') (h_counter h)); [apply R|]. rewrite C. apply spec_counter. }
  split; [|exact C]. rewrite <- Q. unfold h_op. destruct (code_step (registry h c) o); reflexivity.
Qed.

Definition upto (A : nat -> list (entry T)) c X : nat -> list (entry T) := fun c' => if (c' =? c)%nat then X else A c'.

Lemma in_spec (A : list (entry T)) n o e : In e (fst (fst (spec_step (A, n) o))) -> In e A \/ e_tok e = (n + 1)%Z.
Proof.
  destruct o as [obj dom b ee a p|t|al ob|k]; cbn.
  - destruct b, ee, obj, a; cbn; auto; rewrite in_app_iff; intros [H|[<-|[]]]; cbn; auto.
  - rewrite filter_In. tauto.
  - rewrite filter_In. tauto.
  - auto.
Qed.
Lemma ok_op h A c o : ok h A -> ok (fst (h_op h c o)) (upto A c (fst (fst (spec_step (A c, h_counter h) o)))).
Proof.
  intros OK. destruct (op_refines h A c o OK) as (R1 & R2 & _ & C). destruct OK as [R D].
  assert (RR : forall c', refines (registry (fst (h_op h c o)) c')
      (upto A c (fst (fst (spec_step (A c, h_counter h) o))) c', h_counter (fst (h_op h c o)))).
  { intros c'. unfold upto. destruct (Nat.eqb_spec c' c) as [->|NE]; [|apply R2; assumption].
    rewrite C, <- surjective_pairing. exact R1. }
  split; [exact RR|].
  assert (K : forall x t, subscribed (fst (h_op h c o)) x t -> subscribed h x t \/ (x = c /\ t = (h_counter h + 1)%Z)).
  { intros x t S. apply (sub_entry _ _ _ _ (RR x)) in S. destruct S as (e & I & <-). unfold upto in I.
    destruct (Nat.eqb_spec x c) as [->|NE].
    - apply in_spec in I. destruct I as [I|I]; [left|right; auto]. apply (sub_entry _ _ _ _ (R c)). eauto.
    - left. apply (sub_entry _ _ _ _ (R x)). eauto. }
  assert (K2 : forall x t, subscribed h x t -> (t <= h_counter h)%Z).
  { intros x t S. apply (sub_range h A x t); [split; assumption|assumption]. }
  intros c1 c2 t S1 S2. apply K in S1. apply K in S2.
  destruct S1 as [S1|[-> ->]], S2 as [S2|[-> E]]; auto.
  - eapply D; eauto.
  - apply K2 in S1. lia.
  - apply K2 in S2. lia.
Qed.

Definition good (h : heap) : Prop := exists A, ok h A.
Lemma good_op h c o : good h -> good (fst (h_op h c o)).
Proof. intros [A H]. eexists. apply ok_op. eassumption. Qed.
Lemma good_ops l : forall h, good h -> good (h_ops h l).
Proof. induction l as [|[c o] l IH]; intros h G; [assumption|]. cbn. apply IH, good_op, G. Qed.
Lemma good_init : good heap0. Proof. eexists. apply ok_init. Qed.

Lemma op_else h c o c' t : c' <> c -> (subscribed (fst (h_op h c o)) c' t <-> subscribed h c' t).
Proof. intros NE. unfold subscribed. rewrite op_regs by assumption. reflexivity. Qed.
Lemma op_remove h c t0 c' t : good h ->
  (subscribed (fst (h_op h c (RRemTok t0))) c' t <-> subscribed h c' t /\ ~ (c' = c /\ t = t0)).
Proof.
  intros [A OK]. destruct (Nat.eq_dec c' c) as [->|NE]; [|rewrite op_else by assumption; tauto].
  destruct (op_refines h A c (RRemTok t0) OK) as (R1 & _ & _ & C). destruct OK as [R D].
  cbn in C. cbn [spec_step fst] in R1. rewrite <- C in R1.
  rewrite (sub_entry _ _ _ _ R1), (sub_entry _ _ _ _ (R c)). split.
  - intros (e & I & <-). apply filter_In in I. destruct I as [I E]. apply negb_true_iff, Z.eqb_neq in E. split; [eauto|tauto].
  - intros ((e & I & <-) & NE). exists e. split; [|reflexivity]. apply filter_In. split; [assumption|].
    apply negb_true_iff, Z.eqb_neq. tauto.
Qed.
Lemma op_remove_obj h c alive ob c' t : good h ->
  (subscribed (fst (h_op h c (RRemObj alive ob))) c' t <->
   subscribed h c' t /\ ~ (c' = c /\ exists o, subscriber h c t = Some o /\ (alive o = false \/ o = ob))).
Proof.
  intros [A OK]. destruct (Nat.eq_dec c' c) as [->|NE]; [|rewrite op_else by assumption; tauto].
  destruct (op_refines h A c (RRemObj alive ob) OK) as (R1 & _ & _ & C). destruct OK as [R D].
  cbn in C. cbn [spec_step fst] in R1. rewrite <- C in R1.
  rewrite (sub_entry _ _ _ _ R1), (sub_entry _ _ _ _ (R c)). split.
  - intros (e & I & <-). apply filter_In in I. destruct I as [I E]. split; [eauto|].
    intros (_ & o & S & X). rewrite (subscriber_entry _ _ _ _ (R c) I) in S. unfold drops in E. rewrite S in E.
    destruct X as [X|X]; [rewrite X in E; discriminate|]. subst. rewrite Nat.eqb_refl, orb_true_r in E. discriminate.
  - intros ((e & I & <-) & NE). exists e. split; [|reflexivity]. apply filter_In. split; [assumption|].
    unfold drops. destruct (e_obj e) as [o|] eqn:E; [|reflexivity]. apply negb_true_iff. apply not_true_is_false. intros X.
    apply NE. split; [reflexivity|]. exists o. rewrite (subscriber_entry _ _ _ _ (R c) I). split; [assumption|].
    apply orb_true_iff in X. destruct X as [X|X]; [left; destruct (alive o); [discriminate|reflexivity]|right; apply Nat.eqb_eq; assumption].
Qed.
Lemma subscribe1_spec h obj c p : good h ->
  let t := snd (subscribe1 h obj c p) in
  t = (h_counter h + 1)%Z /\ good (fst (subscribe1 h obj c p)) /\
  h_counter (fst (subscribe1 h obj c p)) = t /\
  (forall c' t', subscribed (fst (subscribe1 h obj c p)) c' t' <-> subscribed h c' t' \/ (c' = c /\ t' = t)) /\
  subscriber (fst (subscribe1 h obj c p)) c t = obj.
Proof.
  intros [A OK]. unfold subscribe1.
  set (o := RAdd obj None forwards forwards false p).
  destruct (op_refines h A c o OK) as (R1 & _ & Q & C). pose proof (ok_op h A c o OK) as OK'.
  assert (SP : spec_step (A c, h_counter h) o =
    ((A c ++ [mkE (h_counter h + 1) p obj (i_parse None) forwards forwards], (h_counter h + 1)%Z), Ok (h_counter h + 1)%Z)).
  { subst o. unfold forwards. destruct obj; reflexivity. }
  rewrite SP in *. cbn [fst snd] in *.
  assert (E : (let '(h0, q) := h_op h c o in (h0, match q with Ok t => t | Err _ => 0%Z end)) = (fst (h_op h c o), (h_counter h + 1)%Z)).
  { destruct (h_op h c o) as [h' q]. cbn in Q |- *. rewrite Q. reflexivity. }
  rewrite E. cbn [fst snd]. rewrite <- C in R1 at 2.
  split; [reflexivity|]. split; [eexists; exact OK'|]. split; [exact C|]. split.
  - intros c' t'. destruct (Nat.eq_dec c' c) as [->|NE]; [|rewrite op_else by assumption; tauto].
    destruct OK as [R D]. rewrite (sub_entry _ _ _ _ R1), (sub_entry _ _ _ _ (R c)). split.
    + intros (e & I & <-). apply in_app_or in I. destruct I as [I|[<-|[]]]; [left; eauto|right; auto].
    + intros [(e & I & <-)|[_ ->]]; [exists e; rewrite in_app_iff; auto|].
      eexists. split; [apply in_or_app; right; left; reflexivity|reflexivity].
  - change (h_counter h + 1)%Z with (e_tok (mkE (h_counter h + 1) p obj (i_parse None) forwards forwards)) at 1.
    rewrite (subscriber_entry _ _ _ _ R1); [reflexivity|]. apply in_or_app. right. left. reflexivity.
Qed.

Lemma subscribe_many_spec obj p cs : forall h, good h ->
  let h' := fst (subscribe_many h obj cs p) in let ts := snd (subscribe_many h obj cs p) in
  good h' /\ length ts = length cs /\ (h_counter h <= h_counter h')%Z /\
  (forall t, In t ts -> (h_counter h < t <= h_counter h')%Z) /\ NoDup ts /\
  (forall c t, subscribed h' c t <-> subscribed h c t \/ In (c, t) (combine cs ts)).
Proof.
  induction cs as [|c cs IH]; intros h G; cbn [subscribe_many].
  { cbn. split; [assumption|]. split; [reflexivity|]. split; [lia|]. split; [tauto|]. split; [constructor|]. tauto. }
  destruct (subscribe1_spec h obj c p G) as (E1 & G1 & C1 & S1 & _).
  destruct (subscribe1 h obj c p) as [h1 t1]. cbn [fst snd] in *.
  destruct (IH h1 G1) as (G2 & L2 & M2 & I2 & D2 & S2).
  destruct (subscribe_many h1 obj cs p) as [h2 ts]. cbn [fst snd length combine] in *.
  split; [assumption|]. split; [lia|]. split; [lia|]. split.
  { intros t [<-|I]; [lia|]. specialize (I2 t I). lia. }
  split. { constructor; [|assumption]. intros I. specialize (I2 _ I). lia. }
  intros c' t. rewrite S2, S1. cbn [In]. split.
  - intros [[H|[-> ->]]|H]; auto.
  - intros [H|[H|H]]; auto. injection H as -> ->. auto.
Qed.

Lemma subscribe_spec o h : good h ->
  let h' := fst (subscribe h o) in let ts := snd (subscribe h o) in
  good h' /\ length ts = length (sources o) /\ (h_counter h <= h_counter h')%Z /\
  (forall t, In t ts -> (h_counter h < t <= h_counter h')%Z) /\ NoDup ts /\
  (forall c t, subscribed h' c t <-> subscribed h c t \/ In (c, t) (combine (sources o) ts)).
Proof.
  intros G.
  assert (K : forall obj1 obj2 p1 p2 cs1 cs2,
    let x := (let '(h, ts) := subscribe_many h obj1 cs1 p1 in let '(h, us) := subscribe_many h obj2 cs2 p2 in (h, ts ++ us)) in
    let h' := fst x in let ts := snd x in
    good h' /\ length ts = length (cs1 ++ cs2) /\ (h_counter h <= h_counter h')%Z /\
    (forall t, In t ts -> (h_counter h < t <= h_counter h')%Z) /\ NoDup ts /\
    (forall c t, subscribed h' c t <-> subscribed h c t \/ In (c, t) (combine (cs1 ++ cs2) ts))).
  { intros. subst x. destruct (subscribe_many_spec obj1 p1 cs1 h G) as (G1 & L1 & M1 & I1 & D1 & S1).
    destruct (subscribe_many h obj1 cs1 p1) as [h1 ts1]. cbn [fst snd] in *.
    destruct (subscribe_many_spec obj2 p2 cs2 h1 G1) as (G2 & L2 & M2 & I2 & D2 & S2).
    destruct (subscribe_many h1 obj2 cs2 p2) as [h2 ts2]. cbn [fst snd] in *. subst h' ts.
    split; [assumption|]. rewrite !app_length. split; [lia|]. split; [lia|]. split.
    { intros t I. apply in_app_or in I. destruct I as [I|I]; [specialize (I1 _ I)|specialize (I2 _ I)]; lia. }
    split. { clear - D1 D2 I1 I2. induction ts1 as [|t ts1 IH]; [assumption|]. cbn. inversion D1; subst. constructor.
      - rewrite in_app_iff. intros [I|I]; [contradiction|]. specialize (I2 _ I). specialize (I1 t (or_introl eq_refl)). lia.
      - apply IH; [|assumption]. intros x I. apply I1. right; assumption. }
    intros c t. rewrite S2, S1. 
    assert (CB : combine (cs1 ++ cs2) (ts1 ++ ts2) = combine cs1 ts1 ++ combine cs2 ts2).
    { clear - L1. revert ts1 L1. induction cs1 as [|a cs1 IH]; intros [|b ts1] L; try discriminate L; [reflexivity|].
      cbn. f_equal. apply IH. cbn in L. lia. }
    rewrite CB, in_app_iff. tauto. }
  destruct o as [c|fs us|c ref|me c fn]; cbn [subscribe sources].
  - exact (subscribe_many_spec None true [c] h G).
  - exact (subscribe_many_spec None true us h G).
  - exact (K None None true false [c] [ref]).
  - exact (K None (Some me) true false [c] fn).
Qed.

Lemma unsubscribe_spec l : forall h, good h -> good (unsubscribe h l) /\
  forall c t, subscribed (unsubscribe h l) c t <-> subscribed h c t /\ ~ In (c, t) l.
Proof.
  induction l as [|[c0 t0] l IH]; intros h G; cbn [unsubscribe In]. { split; [assumption|]. tauto. }
  destruct (IH _ (good_op h c0 (RRemTok t0) G)) as [G' S]. split; [assumption|].
  intros c t. rewrite S, op_remove by assumption. split.
  - intros ((H1 & H2) & H3). split; [assumption|]. intros [E|E]; [|contradiction]. injection E as -> ->. auto.
  - intros (H1 & H2). split; [split; [assumption|]|]; [intros [-> ->]|intros E]; apply H2; auto.
Qed.

Lemma counter_op h c o : good h -> (h_counter h <= h_counter (fst (h_op h c o)))%Z.
Proof. intros [A OK]. destruct (op_refines h A c o OK) as (_ & _ & _ & ->). apply spec_counter. Qed.
Lemma op_old h c o c' t : good h -> (t <= h_counter h)%Z -> subscribed (fst (h_op h c o)) c' t -> subscribed h c' t.
Proof.
  intros [A OK] L S. destruct (Nat.eq_dec c' c) as [->|NE]; [|rewrite op_else in S; assumption].
  destruct (op_refines h A c o OK) as (R1 & _ & _ & C). destruct OK as [R D].
  rewrite (surjective_pairing (fst (spec_step (A c, h_counter h) o))), <- C in R1.
  apply (sub_entry _ _ _ _ R1) in S. destruct S as (e & I & <-). apply in_spec in I. destruct I as [I|I]; [|lia].
  apply (sub_entry _ _ _ _ (R c)). eauto.
Qed.
Lemma ops_old l : forall h c t, good h -> (t <= h_counter h)%Z -> subscribed (h_ops h l) c t -> subscribed h c t.
Proof.
  induction l as [|[c0 o] l IH]; intros h c t G L S; [assumption|]. cbn in S.
  apply IH in S; [|apply good_op; assumption|].
  - eapply op_old; eauto.
  - pose proof (counter_op h c0 o G). lia.
Qed.

(** the object that passes itself to remove_observer *)
Definition self (o : derived) : option nat := match o with DExtension me _ _ => Some me | _ => None end.

Section Run.
Variables (l0 l : list (nat * rop T)) (o : derived) (alive : nat -> bool).
Let h := h_ops heap0 l0.
Let h1 := fst (subscribe h o).
Let ts := snd (subscribe h o).
Let h2 := h_ops h1 l.
Let h3 := finalise alive h2 o ts.

Lemma g0 : good h. Proof. apply good_ops, good_init. Qed.
Lemma g1 : good h1. Proof. apply (subscribe_spec o h g0). Qed.
Lemma g2 : good h2. Proof. apply good_ops, g1. Qed.
Lemma registered c t : In (c, t) (combine (sources o) ts) -> subscribed h1 c t.
Proof. intros I. apply (subscribe_spec o h g0). auto. Qed.
(** a token of the object is registered nowhere else *)
Lemma token_home c c' t : In (c, t) (combine (sources o) ts) -> subscribed h2 c' t -> c' = c.
Proof.
  intros I S. assert (S1 : subscribed h1 c t) by (apply registered; assumption).
  assert (B : (t <= h_counter h1)%Z).
  { apply (subscribe_spec o h g0). apply in_combine_r in I. assumption. }
  assert (S2 : subscribed h1 c' t). { apply (ops_old l h1 c' t g1 B S). }
  destruct g1 as [A [_ D]]. exact (D _ _ _ S2 S1).
Qed.
Lemma combine_other (fs : list nat) c t : (forall x, In x ts -> exists c, In (c, x) (combine (sources o) ts)) ->
  In (c, t) (combine fs ts) -> subscribed h2 c t -> In (c, t) (combine (sources o) ts).
Proof.
  intros H I S. destruct (H t (in_combine_r _ _ _ _ I)) as [c' I']. rewrite (token_home _ _ _ I' S). assumption.
Qed.
Lemma tokens_own x : In x ts -> exists c, In (c, x) (combine (sources o) ts).
Proof.
  destruct (subscribe_spec o h g0) as (_ & L & _). fold ts in L. revert L. generalize (sources o) as ss. generalize ts as us.
  induction us as [|u us IH]; intros [|s ss] L I; try discriminate L; [destruct I|]. cbn in *. destruct I as [->|I]; [eauto|].
  destruct (IH ss ltac:(lia) I) as [c Hc]. eauto.
Qed.

(** finalising only ever removes registrations ... *)
Lemma only_removes c t : subscribed h3 c t -> subscribed h2 c t.
Proof.
  unfold h3, finalise. pose proof g2 as G. revert G. generalize h2 as x. generalize ts as us. intros us x G.
  destruct o; try (intros S; apply unsubscribe_spec in S; [tauto|exact G]).
  intros S. apply op_remove_obj in S; [tauto|exact G].
Qed.
(** ... of the object itself (or of dead objects) *)
Lemma leaves_others c t : ~ In (c, t) (combine (sources o) ts) ->
  (forall ob, subscriber h2 c t = Some ob -> alive ob = true /\ self o <> Some ob) ->
  subscribed h2 c t -> subscribed h3 c t.
Proof.
  intros NI AL S.
  assert (K : forall fs, ~ In (c, t) (combine fs ts) -> subscribed (unsubscribe h2 (combine fs ts)) c t).
  { intros fs NJ. apply unsubscribe_spec; [exact g2|]. auto. }
  assert (K' : forall fs, subscribed (unsubscribe h2 (combine fs ts)) c t).
  { intros fs. apply K. intros I. apply NI. apply (combine_other fs); [exact tokens_own|assumption|assumption]. }
  unfold h3, finalise.
  assert (EX : forall cc ref, o = DExtremas cc ref -> subscribed (unsubscribe h2 (combine [ref] (skipn 1 ts))) c t).
  { intros cc ref Eo. apply unsubscribe_spec; [exact g2|]. split; [assumption|]. intros I. apply NI.
    pose proof (subscribe_spec o h g0) as (_ & L & _). fold ts in L. rewrite Eo in L |- *. cbn [sources length] in *.
    destruct ts as [|t1 [|t2 [|]]]; try discriminate L. cbn in *. destruct I as [I|[]]. auto. }
  assert (ET : forall me cc fn, o = DExtension me cc fn -> subscribed (fst (h_op h2 cc (RRemObj alive me))) c t).
  { intros me cc fn Eo. apply op_remove_obj; [exact g2|]. split; [assumption|]. intros (-> & ob & E & X).
    destruct (AL ob E) as [A1 A2]. destruct X as [X|X]; [congruence|]. subst ob. apply A2. rewrite Eo. reflexivity. }
  revert K' EX ET. clear. generalize h2 as x. generalize ts as us'. intros us' x K' EX ET.
  destruct o as [c0|fs us|c0 ref|me c0 fn]; [apply K'|apply K'|eapply EX; reflexivity|eapply ET; reflexivity].
Qed.
End Run.

Section Kinds.
Variables (l0 l : list (nat * rop T)) (alive : nat -> bool).
Let h := h_ops heap0 l0.

Lemma one_gone c : let h1 := fst (subscribe h (DOne c)) in let ts := snd (subscribe h (DOne c)) in
  forall t, In t ts -> subscribed h1 c t /\ ~ subscribed (finalise alive (h_ops h1 l) (DOne c) ts) c t.
Proof.
  intros h1 ts t I. assert (I' : In (c, t) (combine [c] ts)).
  { destruct (tokens_own l0 (DOne c) t I) as [c' I']. change (In (c', t) (combine [c] ts)) in I'.
    pose proof (in_combine_l _ _ _ _ I') as [<-|[]]. exact I'. }
  split. { exact (registered l0 (DOne c) c t I'). }
  unfold finalise. intros S. apply unsubscribe_spec in S; [|exact (g2 l0 l (DOne c))]. apply (proj2 S), I'.
Qed.

Lemma many_iff fs us : let h1 := fst (subscribe h (DMany fs us)) in let ts := snd (subscribe h (DMany fs us)) in
  length ts = length us /\
  forall i f t, nth_error us i = Some f -> nth_error ts i = Some t ->
  subscribed h1 f t /\
  (subscribed (finalise alive (h_ops h1 l) (DMany fs us) ts) f t <->
   subscribed (h_ops h1 l) f t /\ nth_error fs i <> Some f).
Proof.
  intros h1 ts. destruct (subscribe_spec (DMany fs us) h (g0 l0)) as (_ & L & _ & _ & ND & _). fold ts in L, ND.
  cbn [sources] in L. split; [exact L|]. intros i f t Ei Et.
  assert (NC : forall (gs : list nat) j (x : nat * Z), nth_error (combine gs ts) j = Some x <-> nth_error gs j = Some (fst x) /\ nth_error ts j = Some (snd x)).
  { clear. intros gs. generalize ts as us'. induction gs as [|g gs IH]; intros us' j x; cbn.
    { destruct j; cbn; split; intros H; try discriminate H; destruct H as [H _]; discriminate H. }
    destruct us' as [|u us']; [destruct j; cbn; (split; intros H; [discriminate H|]; destruct H as [_ H]; discriminate H)|].
    destruct j as [|j]; cbn; [|apply IH]. split.
    - intros [= <-]. auto.
    - intros [[= ->] [= ->]]. destruct x; reflexivity. }
  split.
  { apply (registered l0 (DMany fs us) f t). fold h ts. cbn [sources]. apply (nth_error_In _ i). apply NC. auto. }
  unfold finalise. pose proof (proj2 (unsubscribe_spec (combine fs ts) _ (g2 l0 l (DMany fs us))) f t) as US.
  fold h h1 in US. rewrite US. split.
  - intros [S NI]. split; [exact S|]. intros E. apply NI. apply (nth_error_In _ i). apply NC. auto.
  - intros [S NE]. split; [exact S|]. intros I. apply In_nth_error in I. destruct I as [j Ej]. apply NC in Ej. cbn in Ej.
    destruct Ej as [E1 E2]. assert (j = i) as ->; [|contradiction].
    apply (proj1 (NoDup_nth_error ts) ND); [apply nth_error_Some; congruence|congruence].
Qed.

Lemma many_same fs : let h1 := fst (subscribe h (DMany fs fs)) in let ts := snd (subscribe h (DMany fs fs)) in
  forall i f t, nth_error fs i = Some f -> nth_error ts i = Some t ->
  subscribed h1 f t /\ ~ subscribed (finalise alive (h_ops h1 l) (DMany fs fs) ts) f t.
Proof.
  intros h1 ts i f t E1 E2. destruct (many_iff fs fs) as [_ K]. destruct (K i f t E1 E2) as [S I]. split; [exact S|].
  intros X. apply I in X. tauto.
Qed.
End Kinds.

Lemma extremas_half l0 l alive c ref : let h := h_ops heap0 l0 in
  let h1 := fst (subscribe h (DExtremas c ref)) in let ts := snd (subscribe h (DExtremas c ref)) in
  exists t u, ts = [t; u] /\ subscribed h1 c t /\ subscribed h1 ref u /\
    ~ subscribed (finalise alive (h_ops h1 l) (DExtremas c ref) ts) ref u /\
    (subscribed (h_ops h1 l) c t -> subscribed (finalise alive (h_ops h1 l) (DExtremas c ref) ts) c t).
Proof.
  intros h h1 ts. destruct (subscribe_spec (DExtremas c ref) h (g0 l0)) as (_ & L & _ & _ & ND & SUB). fold ts h1 in L, ND, SUB.
  cbn [sources length] in L. destruct ts as [|t [|u [|]]] eqn:ET; try discriminate L. exists t, u.
  split; [reflexivity|]. split; [apply SUB; right; left; reflexivity|]. split; [apply SUB; right; right; left; reflexivity|].
  cbn [finalise skipn combine]. pose proof (unsubscribe_spec [(ref, u)] _ (g2 l0 l (DExtremas c ref))) as [_ US].
  fold h h1 in US. rewrite !US. split.
  - intros [_ NI]. apply NI. left. reflexivity.
  - intros S. split; [exact S|]. intros [E|[]]. injection E as -> ->. inversion ND as [|? ? X]. apply X. left. reflexivity.
Qed.

Lemma subscriber_ops_none l : forall (h : heap) c t, good h -> subscribed h c t -> (t <= h_counter h)%Z -> subscriber h c t = None ->
  subscriber (h_ops h l) c t = None.
Proof.
  induction l as [|[c0 o] l IH]; intros h c t G S B E; [exact E|].
  change (h_ops h ((c0, o) :: l)) with (h_ops (fst (h_op h c0 o)) l).
  destruct G as [A OK].
  assert (X : subscribed (fst (h_op h c0 o)) c t \/ ~ subscribed (fst (h_op h c0 o)) c t).
  { unfold subscribed. destruct (in_dec Z.eq_dec t (r_tokens (h_regs (fst (h_op h c0 o)) c))); auto. }
  pose proof (good_op h c0 o (ex_intro _ A OK)) as G1.
  pose proof (counter_op h c0 o (ex_intro _ A OK)) as M.
  destruct X as [X|X].
  - apply IH; [exact G1|exact X|lia|]. destruct (Nat.eq_dec c c0) as [->|NE].
    + pose proof (ok_op h A c0 o OK) as [R' _]. specialize (R' c0). unfold upto in R'. rewrite Nat.eqb_refl in R'.
      apply (sub_entry _ _ _ _ R') in X. destruct X as (e & I & <-). rewrite (subscriber_entry _ _ _ _ R' I).
      apply in_spec in I. destruct I as [I|I]; [|lia]. rewrite <- E. symmetry. apply (subscriber_entry _ (A c0)); [apply OK|assumption].
    + unfold subscriber. rewrite op_regs by assumption. exact E.
  - assert (Y : ~ subscribed (h_ops (fst (h_op h c0 o)) l) c t).
    { intros Y. apply X. apply (ops_old l _ c t G1); [lia|exact Y]. }
    pose proof (good_ops l _ G1) as [A' [R' _]]. unfold subscriber.
    destruct (d_get (r_data (h_regs (h_ops (fst (h_op h c0 o)) l) c)) t) as [d|] eqn:D; [|reflexivity].
    exfalso. apply Y. apply (sub_entry _ _ _ _ (R' c)). pose proof (rf_data _ _ (R' c)) as RD. cbn [registry r_data fst] in RD.
    rewrite RD, d_get_map in D. destruct (find (fun e => (e_tok e =? t)%Z) (A' c)) as [e|] eqn:F; [|discriminate D].
    apply find_some in F. destruct F as [F1 F2]. exists e. split; [exact F1|]. apply Z.eqb_eq. exact F2.
Qed.

Lemma extension_kept l0 l alive me c fn : let h := h_ops heap0 l0 in
  let h1 := fst (subscribe h (DExtension me c fn)) in let ts := snd (subscribe h (DExtension me c fn)) in
  exists t us, ts = t :: us /\ subscribed h1 c t /\
    (subscribed (h_ops h1 l) c t -> subscribed (finalise alive (h_ops h1 l) (DExtension me c fn) ts) c t).
Proof.
  intros h h1 ts.
  pose proof (g0 l0) as G. fold h in G.
  destruct (subscribe1_spec h None c true G) as (E1 & G1 & C1 & S1 & O1).
  assert (E : exists us, ts = snd (subscribe1 h None c true) :: us /\ h1 = fst (subscribe_many (fst (subscribe1 h None c true)) (Some me) fn false)).
  { subst ts h1. cbn [subscribe subscribe_many]. destruct (subscribe1 h None c true) as [h' t']. cbn [fst snd].
    destruct (subscribe_many h' (Some me) fn false) as [h'' us]. exists us. auto. }
  destruct E as (us & Ets & Eh1). exists (snd (subscribe1 h None c true)), us. split; [exact Ets|].
  set (t := snd (subscribe1 h None c true)) in *. set (h' := fst (subscribe1 h None c true)) in *.
  assert (S' : subscribed h' c t) by (apply S1; auto).
  split. { rewrite Eh1. apply subscribe_many_spec; auto. }
  intros S. cbn [finalise]. apply op_remove_obj; [exact (g2 l0 l (DExtension me c fn))|]. split; [exact S|].
  intros (_ & ob & E & _).
  assert (K : exists l', h1 = h_ops h' l').
  { rewrite Eh1. clear. generalize h' as h0. induction fn as [|f fn IH]; intros h0; [exists []; reflexivity|].
    cbn [subscribe_many]. destruct (subscribe1 h0 (Some me) f false) as [h2 t2] eqn:E2.
    destruct (IH h2) as [l' El]. destruct (subscribe_many h2 (Some me) fn false) as [h3 ts3]. cbn [fst] in *.
    exists ((f, RAdd (Some me) None forwards forwards false false) :: l'). cbn [h_ops fold_left fst snd].
    unfold subscribe1 in E2. destruct (h_op h0 f (RAdd (Some me) None forwards forwards false false)) as [h4 q]. injection E2 as -> _.
    exact El. }
  destruct K as [l' K]. fold h1 in E. rewrite K in E.
  assert (CC : h_ops (h_ops h' l') l = h_ops h' (l' ++ l)). { unfold h_ops. symmetry. apply fold_left_app. }
  rewrite CC, subscriber_ops_none in E; [discriminate E|exact G1|exact S'|lia|exact O1].
Qed.
End Facts.
