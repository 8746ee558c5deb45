(** What the notification loops call. *)
From Coq Require Import List ZArith Bool Lia Permutation.
From Verif Require Import Base Num NumFacts Interval IntervalFacts Curve Observer ObserverSpec ObserverFacts.
Import ListNotations.

Section Notify.
Context {T : Type} {N : Num T}.
Implicit Types (A B : list (entry T)) (r : reg T).

Lemma takes_wants (c : cb T) : takes_interval (Some c) = wants_arg c.
Proof. now destruct c. Qed.

(** ** Passive callbacks *)
Lemma begin_loop_passive alive d r A n : refines r (A, n) -> passive A ->
  forall k i fuel, (length (order A) = i + k)%nat -> (k < fuel)%nat ->
  begin_loop alive fuel i d r = (r, flat_map (begin_calls d) (skipn i (order A)), Ok tt).
Proof.
  intros R P. induction k as [|k IH]; intros i fuel L F; (destruct fuel as [|f]; [lia|]); cbn [begin_loop].
  - rewrite (rf_tokens _ _ R). cbn [fst]. rewrite (proj2 (nth_error_None _ _)) by (rewrite map_length; lia).
    rewrite skipn_all2 by lia. reflexivity.
  - destruct (nth_error (order A) i) as [e|] eqn:E; [|apply nth_error_None in E; lia].
    rewrite (rf_tokens _ _ R). cbn [fst]. rewrite (map_nth_error e_tok _ _ E).
    assert (I : In e A) by (apply in_order; eapply nth_error_In; eauto).
    rewrite (refines_get _ _ _ R I).
    assert (SK : skipn i (order A) = e :: skipn (S i) (order A)).
    { clear -E. revert i E. induction (order A) as [|x l IHl]; intros [|i] E; simpl in *; try discriminate; [congruence|]. now rewrite (IHl i E). }
    rewrite SK. cbn [flat_map data_of o_dom o_begin o_bw]. unfold begin_calls at 1.
    pose proof (proj1 (Forall_forall _ _) P _ I) as [P1 _]. unfold cb_passive in P1.
    rewrite (IH (S i) f) by lia.
    destruct (e_begin e) as [c|] eqn:B.
    + destruct (i_intersects d (e_dom e)); auto. rewrite P1. cbn [run_acts fold_left]. rewrite (IH (S i) f) by lia.
      rewrite takes_wants. reflexivity.
    + destruct (i_intersects d (e_dom e)); auto.
Qed.

Lemma end_loop_passive alive d r A n : refines r (A, n) -> passive A ->
  forall l, incl l (order A) -> end_loop alive (map e_tok l) d r = (r, flat_map (end_calls d) l, Ok tt).
Proof.
  intros R P. induction l as [|e l IH]; intros IN; simpl; auto.
  assert (I : In e A) by (apply in_order, IN; simpl; auto).
  rewrite (refines_get _ _ _ R I). cbn [data_of o_dom o_end o_ew]. unfold end_calls at 1.
  pose proof (proj1 (Forall_forall _ _) P _ I) as [_ P2]. unfold cb_passive in P2.
  rewrite IH by (intros x Hx; apply IN; simpl; auto).
  destruct (e_end e) as [c|] eqn:B.
  - destruct (i_intersects d (e_dom e)); auto. rewrite P2. cbn [run_acts fold_left].
    rewrite IH by (intros x Hx; apply IN; simpl; auto). rewrite takes_wants. reflexivity.
  - destruct (i_intersects d (e_dom e)); auto.
Qed.

(** ** Any callbacks *)
Definition ok_reg r := exists s, refines r s.

Lemma act_ok alive r a : ok_reg r -> ok_reg (run_act alive r a) /\ (r_counter r <= r_counter (run_act alive r a))%Z /\
  forall t, In t (r_tokens (run_act alive r a)) -> In t (r_tokens r) \/ (r_counter r < t)%Z.
Proof.
  intros [[A n] R]. pose proof (rf_counter _ _ R) as C. cbn [snd] in C.
  assert (SUB : forall r' f, refines r' (filter f A, n) -> (r_counter r <= r_counter r')%Z /\
     forall t, In t (r_tokens r') -> In t (r_tokens r) \/ (r_counter r < t)%Z).
  { intros r' f R'. split; [rewrite C, (rf_counter _ _ R'); cbn [snd]; lia|].
    intros t I. left. rewrite (rf_tokens _ _ R') in I. rewrite (rf_tokens _ _ R). cbn [fst] in *.
    apply in_map_iff in I. destruct I as [x [<- I]]. apply in_map, in_order. apply (proj1 (in_order _ _)) in I. apply filter_In in I. tauto. }
  destruct a as [t|o|obj dom b e p]; cbn [run_act].
  - pose proof (refines_remtok r A n t R) as R'. split; [eexists; eauto|]. eapply SUB; eauto.
  - destruct (refines_remobj r A n alive o R) as [r' [-> R']]. cbn [fst]. split; [eexists; eauto|]. eapply SUB; eauto.
  - destruct (refines_step r (A, n) (RAdd obj dom b e false p) R) as [_ R']. cbn [code_step] in R'.
    split; [eexists; eauto|].
    assert (X : forall x, In x (r_tokens (fst (add_observer r obj dom b e false p))) -> In x (r_tokens r) \/ (r_counter r < x)%Z).
    { intros x. unfold add_observer. destruct b as [b|], e as [e|]; auto; destruct obj; cbn [fst r_tokens]; destruct p; simpl;
        rewrite ?in_app_iff; simpl; intuition lia. }
    split; auto. unfold add_observer. destruct b as [b|], e as [e|]; try (cbn; lia); destruct obj; cbn; lia.
Qed.

Lemma acts_ok alive l : forall r, ok_reg r -> ok_reg (run_acts alive r l) /\ (r_counter r <= r_counter (run_acts alive r l))%Z /\
  forall t, In t (r_tokens (run_acts alive r l)) -> In t (r_tokens r) \/ (r_counter r < t)%Z.
Proof.
  induction l as [|a l IH]; intros r O; simpl; [split; auto; split; auto; lia|].
  destruct (act_ok alive r a O) as [O1 [C1 T1]]. destruct (IH _ O1) as [O2 [C2 T2]].
  split; auto. split; [unfold run_acts in *; lia|]. intros t I. destruct (T2 t I) as [J|J]; [auto|right; lia].
Qed.

(** Every call goes to a token registered at that moment. *)
Lemma begin_loop_calls alive d : forall fuel i r r' log q, ok_reg r -> begin_loop alive fuel i d r = (r', log, q) ->
  ok_reg r' /\ (r_counter r <= r_counter r')%Z /\
  (forall t, In t (r_tokens r') -> In t (r_tokens r) \/ (r_counter r < t)%Z) /\
  (forall k, In k log -> In (k_tok k) (r_tokens r) \/ (r_counter r < k_tok k)%Z).
Proof.
  induction fuel as [|f IH]; intros i r r' log q O E; cbn [begin_loop] in E.
  { injection E as <- <- _. repeat split; auto; try lia. contradiction. }
  destruct (nth_error (r_tokens r) i) as [t|] eqn:Nt.
  2:{ injection E as <- <- _. repeat split; auto; try lia. contradiction. }
  destruct (d_get (r_data r) t) as [od|].
  2:{ injection E as <- <- _. repeat split; auto; try lia. contradiction. }
  destruct (i_intersects d (o_dom od)); [|eapply IH; eauto].
  destruct (o_begin od) as [c|]; [|eapply IH; eauto].
  destruct (acts_ok alive (cb_acts c) r O) as [O1 [C1 T1]].
  destruct (begin_loop alive f (S i) d (run_acts alive r (cb_acts c))) as [[r1 log1] q1] eqn:E1.
  injection E as <- <- _. destruct (IH _ _ _ _ _ O1 E1) as [O2 [C2 [T2 L2]]].
  split; auto. split; [lia|]. split.
  - intros x I. destruct (T2 x I) as [J|J]; [auto|right; lia].
  - intros k [<-|I]; [left; simpl; eapply nth_error_In; eauto|]. destruct (L2 k I) as [J|J]; [auto|right; lia].
Qed.

Lemma end_loop_calls alive d : forall ts r r' log q, ok_reg r -> end_loop alive ts d r = (r', log, q) ->
  ok_reg r' /\ (r_counter r <= r_counter r')%Z /\
  (forall t, In t (r_tokens r') -> In t (r_tokens r) \/ (r_counter r < t)%Z) /\
  (forall k, In k log -> In (k_tok k) (r_tokens r) \/ (r_counter r < k_tok k)%Z).
Proof.
  induction ts as [|t ts IH]; intros r r' log q O E; cbn [end_loop] in E.
  { injection E as <- <- _. repeat split; auto; try lia. contradiction. }
  destruct (d_get (r_data r) t) as [od|] eqn:G.
  2:{ injection E as <- <- _. repeat split; auto; try lia. contradiction. }
  destruct (i_intersects d (o_dom od)); [|eapply IH; eauto].
  destruct (o_end od) as [c|]; [|eapply IH; eauto].
  destruct (acts_ok alive (cb_acts c) r O) as [O1 [C1 T1]].
  destruct (end_loop alive ts d (run_acts alive r (cb_acts c))) as [[r1 log1] q1] eqn:E1.
  injection E as <- <- _. destruct (IH _ _ _ _ O1 E1) as [O2 [C2 [T2 L2]]].
  split; auto. split; [lia|]. split.
  - intros x I. destruct (T2 x I) as [J|J]; [auto|right; lia].
  - intros k [<-|I].
    + left. simpl. destruct O as [[A n] R]. rewrite (rf_data _ _ R), d_get_map in G. cbn [fst] in G.
      destruct (find _ A) as [e|] eqn:F; [|discriminate]. apply find_some in F. destruct F as [Ie Et]. apply Z.eqb_eq in Et. subst t.
      rewrite (rf_tokens _ _ R). now apply in_map, in_order.
    + destruct (L2 k I) as [J|J]; [auto|right; lia].
Qed.

(** ** Histories of a curve with observers, callbacks arbitrary *)
Inductive oop := OReg (o : rop T) | OBegin (alive : nat -> bool) (fuel : nat) (d : ival T) | OEnd (alive : nat -> bool) (d : ival T).
Definition oop_step (c : ocurve) (o : oop) : ocurve * list (call T) :=
  match o with
  | OReg o => ((fst c, fst (code_step (snd c) o)), [])
  | OBegin alive fuel d => fst (ob_begin alive fuel c d)
  | OEnd alive d => fst (ob_end alive c d)
  end.
Fixpoint oop_run (c : ocurve) (l : list oop) : ocurve * list (call T) :=
  match l with
  | [] => (c, [])
  | o :: l' => let '(c1, k1) := oop_step c o in let '(c2, k2) := oop_run c1 l' in (c2, k1 ++ k2)
  end.

Lemma oop_step_calls c o c' ks : ok_reg (snd c) -> oop_step c o = (c', ks) ->
  ok_reg (snd c') /\ (r_counter (snd c) <= r_counter (snd c'))%Z /\
  (forall t, In t (r_tokens (snd c')) -> In t (r_tokens (snd c)) \/ (r_counter (snd c) < t)%Z) /\
  (forall k, In k ks -> In (k_tok k) (r_tokens (snd c)) \/ (r_counter (snd c) < k_tok k)%Z).
Proof.
  intros O E. destruct c as [u r]. destruct o as [o|alive fuel d|alive d]; cbn [oop_step snd fst] in *.
  - injection E as <- <-. cbn [snd]. destruct O as [[A n] R].
    destruct (refines_step r (A, n) o R) as [_ R']. split; [eexists; eauto|].
    pose proof (rf_counter _ _ R) as C. cbn [snd] in C.
    assert (SUB : forall r' f, refines r' (filter f A, n) -> (r_counter r <= r_counter r')%Z /\
      forall t, In t (r_tokens r') -> In t (r_tokens r) \/ (r_counter r < t)%Z).
    { intros r' f R1. split; [rewrite C, (rf_counter _ _ R1); cbn [snd]; lia|].
      intros t I. left. rewrite (rf_tokens _ _ R1) in I. rewrite (rf_tokens _ _ R). cbn [fst] in *.
      apply in_map_iff in I. destruct I as [x [<- I]]. apply in_map, in_order. apply (proj1 (in_order _ _)) in I. apply filter_In in I. tauto. }
    assert (X : (r_counter r <= r_counter (fst (code_step r o)))%Z /\
                forall t, In t (r_tokens (fst (code_step r o))) -> In t (r_tokens r) \/ (r_counter r < t)%Z).
    { destruct o as [obj dom b e a p|t|al ob|k].
      - cbn [code_step]. unfold add_observer. destruct b as [b|], e as [e|]; try (split; [cbn; lia|auto]); destruct obj, a; cbn [fst r_tokens r_counter];
          (split; [lia|]); try (intros x I; left; exact I); destruct p; simpl; intros x; rewrite ?in_app_iff; simpl; intuition lia.
      - apply (SUB _ _ R').
      - cbn [code_step spec_step] in *. apply (SUB _ _ R').
      - cbn. split; [lia|auto]. }
    destruct X as [X1 X2]. repeat split; auto. contradiction.
  - unfold ob_begin in E. cbn [fst snd] in E. destruct (begin_update u d) as [u1 [d1|]].
    + destruct (begin_loop alive fuel 0 d1 r) as [[r1 log] q] eqn:E1. injection E as <- <-. cbn [snd]. eapply begin_loop_calls; eauto.
    + injection E as <- <-. cbn [snd]. repeat split; auto; try lia. contradiction.
  - unfold ob_end in E. cbn [fst snd] in E. destruct (end_update u d) as [u1 [d1|]].
    + destruct (end_loop alive (r_tokens r) d1 r) as [[r1 log] q] eqn:E1. injection E as <- <-. cbn [snd]. eapply end_loop_calls; eauto.
    + injection E as <- <-. cbn [snd]. repeat split; auto; try lia. contradiction.
Qed.

Theorem removed_never_called l : forall c t, ok_reg (snd c) -> ~ In t (r_tokens (snd c)) -> (t <= r_counter (snd c))%Z ->
  forall k, In k (snd (oop_run c l)) -> k_tok k <> t.
Proof.
  induction l as [|o l IH]; intros c t O Nt L k I; [contradiction|]. simpl in I.
  destruct (oop_step c o) as [c1 k1] eqn:E1. destruct (oop_step_calls c o c1 k1 O E1) as [O1 [C1 [T1 L1]]].
  destruct (oop_run c1 l) as [c2 k2] eqn:E2. cbn [snd] in I. apply in_app_iff in I. destruct I as [I|I].
  - intros Q. destruct (L1 k I) as [J|J]; [rewrite Q in J; contradiction|lia].
  - apply (IH c1 t); auto; [|lia|rewrite E2; exact I]. intros J. destruct (T1 t J) as [K|K]; [contradiction|lia].
Qed.

(** ** Callbacks that remove observers *)
Lemma run_removes alive : forall ts r A n, refines r (A, n) ->
  refines (run_acts alive r (map ARemoveTok ts)) (filter (fun e => negb (existsb (Z.eqb (e_tok e)) ts)) A, n).
Proof.
  induction ts as [|t ts IH]; intros r A n R; simpl.
  - replace (filter _ A) with A; auto. clear. induction A; simpl; auto. now f_equal.
  - pose proof (IH _ _ _ (refines_remtok r A n t R)) as R'. revert R'.
    match goal with |- refines _ (?a, _) -> refines _ (?b, _) => replace b with a; auto end.
    clear. induction A as [|e A IHA]; simpl; auto. destruct (e_tok e =? t)%Z; simpl; auto.
    destruct (existsb _ ts); simpl; congruence.
Qed.

(** In end_update, if nobody removes an observer that is still to be called,
    everybody is called. *)
Lemma end_loop_backward alive d : forall l r A n, refines r (A, n) -> incl l A ->
  (forall l1 e l2, l = l1 ++ e :: l2 -> exists ts, removes (e_end e) ts /\ forall e', In e' l2 -> ~ In (e_tok e') ts) ->
  exists r', end_loop alive (map e_tok l) d r = (r', flat_map (end_calls d) l, Ok tt) /\ ok_reg r'.
Proof.
  induction l as [|e l IH]; intros r A n R IN H; simpl.
  - exists r. split; auto. eexists; eauto.
  - assert (I : In e A) by (apply IN; simpl; auto).
    rewrite (refines_get _ _ _ R I). cbn [data_of o_dom o_end o_ew]. unfold end_calls at 1.
    assert (H' : forall l1 e0 l2, l = l1 ++ e0 :: l2 -> exists ts, removes (e_end e0) ts /\ forall e', In e' l2 -> ~ In (e_tok e') ts).
    { intros l1 e0 l2 ->. apply (H (e :: l1) e0 l2). reflexivity. }
    assert (IN' : incl l A) by (intros x Hx; apply IN; simpl; auto).
    destruct (e_end e) as [c|] eqn:B.
    + destruct (i_intersects d (e_dom e)); [|apply (IH r A n); auto].
      destruct (H [] e l eq_refl) as [ts [Rm Nl]]. rewrite B in Rm. cbn [removes] in Rm. rewrite Rm.
      pose proof (run_removes alive ts r A n R) as R1.
      destruct (IH _ _ _ R1) as [r' [E O]]; auto.
      { intros x Hx. apply filter_In. split; auto. apply negb_true_iff. destruct (existsb _ ts) eqn:X; auto.
        apply existsb_exists in X. destruct X as [y [Iy Ey]]. apply Z.eqb_eq in Ey. subst y. exfalso. eapply Nl; eauto. }
      rewrite E, takes_wants. eauto.
    + destruct (i_intersects d (e_dom e)); apply (IH r A n); auto.
Qed.

(** begin_update never raises when callbacks only remove observers. *)
Lemma begin_loop_no_raise alive d : forall fuel i r A n, refines r (A, n) -> (length A < i + fuel)%nat -> (0 < fuel)%nat ->
  Forall (fun e => exists ts, removes (e_begin e) ts) A ->
  exists r' log, begin_loop alive fuel i d r = (r', log, Ok tt) /\ ok_reg r'.
Proof.
  induction fuel as [|f IH]; intros i r A n R L F P; [lia|]. cbn [begin_loop].
  destruct (nth_error (r_tokens r) i) as [t|] eqn:Nt; [|exists r, []; split; auto; eexists; eauto].
  assert (Li : (i < length A)%nat).
  { assert (X : (i < length (r_tokens r))%nat) by (apply nth_error_Some; congruence).
    rewrite (rf_tokens _ _ R), map_length in X. cbn [fst] in X. now rewrite (Permutation_length (order_perm A)) in X. }
  assert (F' : (0 < f)%nat) by lia.
  rewrite (rf_tokens _ _ R) in Nt. apply nth_error_In in Nt. apply in_map_iff in Nt. destruct Nt as [e [<- I]]. apply (proj1 (in_order _ _)) in I. cbn [fst] in I.
  rewrite (refines_get _ _ _ R I). cbn [data_of o_dom o_begin o_bw].
  destruct (i_intersects d (e_dom e)); [|apply (IH _ r A n); auto; lia].
  destruct (e_begin e) as [c|] eqn:B; [|apply (IH _ r A n); auto; lia].
  pose proof (proj1 (Forall_forall _ _) P e I) as [ts Rm]. rewrite B in Rm. cbn [removes] in Rm. rewrite Rm.
  pose proof (run_removes alive ts r A n R) as R1.
  assert (LF : forall f0 : entry T -> bool, (length (filter f0 A) <= length A)%nat).
  { intros f0. clear. induction A as [|x A IHA]; simpl; auto. destruct (f0 x); simpl; lia. }
  destruct (IH (S i) _ _ _ R1) as [r' [log [E O]]]; auto.
  - pose proof (LF (fun e0 => negb (existsb (Z.eqb (e_tok e0)) ts))). lia.
  - rewrite Forall_forall in *. intros x Hx. apply filter_In in Hx. apply P. tauto.
  - rewrite E. eauto.
Qed.

(** ... and if they only remove observers still to be called, everybody who
    stays is called. *)
Lemma begin_loop_forward alive d : forall fuel i r A n, refines r (A, n) -> (length A < i + fuel)%nat -> (0 < fuel)%nat ->
  (forall l1 e l2, order A = l1 ++ e :: l2 -> (i <= length l1)%nat ->
     exists ts, removes (e_begin e) ts /\ ~ In (e_tok e) ts /\ forall e', In e' l1 -> ~ In (e_tok e') ts) ->
  exists r' log, begin_loop alive fuel i d r = (r', log, Ok tt) /\
    forall e, In e (skipn i (order A)) -> In (e_tok e) (r_tokens r') -> forall k, In k (begin_calls d e) -> In k log.
Proof.
  induction fuel as [|f IH]; intros i r A n R L F P; [lia|]. cbn [begin_loop].
  destruct (nth_error (r_tokens r) i) as [t|] eqn:Nt.
  2:{ exists r, []. split; auto. intros e I. apply nth_error_None in Nt. rewrite (rf_tokens _ _ R), map_length in Nt.
      cbn [fst] in Nt. rewrite skipn_all2 in I by lia. contradiction. }
  assert (Li : (i < length A)%nat).
  { assert (X : (i < length (r_tokens r))%nat) by (apply nth_error_Some; congruence).
    rewrite (rf_tokens _ _ R), map_length in X. cbn [fst] in X. now rewrite (Permutation_length (order_perm A)) in X. }
  assert (F' : (0 < f)%nat) by lia.
  assert (NE : exists e, nth_error (order A) i = Some e).
  { destruct (nth_error (order A) i) eqn:Q; eauto. apply nth_error_None in Q. rewrite (Permutation_length (order_perm A)) in Q. lia. }
  destruct NE as [e NE]. rewrite (rf_tokens _ _ R) in Nt. cbn [fst] in Nt. rewrite (map_nth_error e_tok _ _ NE) in Nt. injection Nt as <-.
  assert (I : In e A) by (apply in_order; eapply nth_error_In; eauto).
  destruct (nth_error_split _ _ NE) as [l1 [l2 [EA EL]]].
  assert (SK : skipn i (order A) = e :: l2) by (rewrite EA, skipn_app, EL, Nat.sub_diag, skipn_all2 by lia; reflexivity).
  assert (SK1 : skipn (S i) (order A) = l2).
  { rewrite EA, skipn_app, skipn_all2 by lia. rewrite EL. replace (S i - i)%nat with 1%nat by lia. reflexivity. }
  rewrite (refines_get _ _ _ R I). cbn [data_of o_dom o_begin o_bw].
  assert (SKIP : begin_calls d e = [] -> exists r' log, begin_loop alive f (S i) d r = (r', log, Ok tt) /\
    forall e, In e (skipn i (order A)) -> In (e_tok e) (r_tokens r') -> forall k, In k (begin_calls d e) -> In k log).
  { intros Z0. destruct (IH (S i) r A n R) as [r' [log [E G]]]; auto; try lia.
    - intros m1 x m2 Em Lm. apply (P m1 x m2 Em). lia.
    - exists r', log. split; auto. intros x Hx. rewrite SK in Hx. destruct Hx as [<-|Hx]; [rewrite Z0; contradiction|].
      apply G. now rewrite SK1. }
  unfold begin_calls at 1 in SKIP.
  destruct (e_begin e) as [c|] eqn:B.
  2:{ destruct (i_intersects d (e_dom e)); apply SKIP; reflexivity. }
  destruct (i_intersects d (e_dom e)) eqn:X; [|apply SKIP; reflexivity].
  clear SKIP. destruct (P l1 e l2 EA ltac:(lia)) as [ts [Rm [Ns Nb]]]. rewrite B in Rm. cbn [removes] in Rm. rewrite Rm.
  pose proof (run_removes alive ts r A n R) as R1. set (f0 := fun e0 : entry T => negb (existsb (Z.eqb (e_tok e0)) ts)) in *.
  assert (K1 : forall x, ~ In (e_tok x) ts -> f0 x = true).
  { intros x Hx. unfold f0. apply negb_true_iff. destruct (existsb _ ts) eqn:Q; auto. apply existsb_exists in Q.
    destruct Q as [y [Iy Ey]]. apply Z.eqb_eq in Ey. subst y. contradiction. }
  assert (OA : order (filter f0 A) = l1 ++ e :: filter f0 l2).
  { rewrite <- filter_order, EA, filter_app. f_equal.
    - clear -Nb K1. induction l1 as [|x l1 IHl]; simpl; auto. rewrite K1 by (apply Nb; simpl; auto). f_equal. apply IHl. intros; apply Nb; simpl; auto.
    - simpl. now rewrite K1. }
  assert (LF : (length (filter f0 A) <= length A)%nat).
  { clear. induction A as [|x A IHA]; simpl; auto. destruct (f0 x); simpl; lia. }
  destruct (IH (S i) _ _ _ R1) as [r' [log [E G]]]; auto; try lia.
  - intros m1 x m2 Em Lm. rewrite OA in Em.
    (* x sits in the filtered tail; find it in the original order *)
    assert (XM : exists m, m1 = l1 ++ e :: m /\ filter f0 l2 = m ++ x :: m2).
    { clear -Em Lm EL. revert i l1 EL Lm Em. 
      assert (G : forall (a1 : list (entry T)) y a2 b1 z b2, a1 ++ y :: a2 = b1 ++ z :: b2 -> (length a1 < length b1)%nat -> exists m, b1 = a1 ++ y :: m /\ a2 = m ++ z :: b2).
      { induction a1 as [|h a1 IHa]; intros y a2 [|g b1] z b2 Q L; simpl in *; try lia.
        - injection Q as <- Q. eauto.
        - injection Q as <- Q. destruct (IHa y a2 b1 z b2 Q) as [m [-> ->]]; [lia|]. eauto. }
      intros i l1 EL Lm Em. apply (G l1 e _ m1 x m2 Em). lia. }
    destruct XM as [m [-> Em2]].
    assert (SP : exists k1 k2, l2 = k1 ++ x :: k2 /\ m = filter f0 k1).
    { clear -Em2. revert m Em2. induction l2 as [|y l2 IHl]; intros m Em2; simpl in Em2; [destruct m; discriminate|].
      destruct (f0 y) eqn:Fy.
      - destruct m as [|h m]; simpl in Em2.
        + injection Em2 as <- _. exists [], l2. auto.
        + injection Em2 as <- Em2. destruct (IHl m Em2) as [k1 [k2 [-> ->]]]. exists (y :: k1), k2. simpl. rewrite Fy. auto.
      - destruct (IHl m Em2) as [k1 [k2 [-> ->]]]. exists (y :: k1), k2. simpl. rewrite Fy. auto. }
    destruct SP as [k1 [k2 [-> ->]]].
    destruct (P (l1 ++ e :: k1) x k2) as [ts' [Q1 [Q2 Q3]]].
    { rewrite EA, <- app_assoc. reflexivity. }
    { rewrite app_length. simpl. lia. }
    exists ts'. split; auto. split; auto. intros e' He'. apply Q3. rewrite in_app_iff in *. simpl in *.
    destruct He' as [He'|[He'|He']]; auto. apply filter_In in He'. tauto.
  - rewrite E. exists r'. eexists. split; [reflexivity|]. intros x Hx Tx k Hk. rewrite SK in Hx. destruct Hx as [<-|Hx].
    + unfold begin_calls in Hk. rewrite B, X in Hk. destruct Hk as [<-|[]]. left. now rewrite takes_wants.
    + right. apply (G x); auto. rewrite OA, skipn_app, skipn_all2 by lia. rewrite EL.
      replace (S i - i)%nat with 1%nat by lia. simpl.
      apply filter_In. split; auto. apply K1. intros J.
      (* a removed token cannot be in the final registry *)
      assert (IA : In x A) by (apply in_order; rewrite EA; apply in_or_app; simpl; auto).
      destruct (begin_loop_calls alive d f (S i) _ _ _ _ (ex_intro _ _ R1) E) as [_ [_ [T1 _]]].
      destruct (T1 _ Tx) as [Y|Y].
      * rewrite (rf_tokens _ _ R1) in Y. cbn [fst] in Y. apply in_map_iff in Y. destruct Y as [y [Ey Iy]]. apply (proj1 (in_order _ _)) in Iy.
        apply filter_In in Iy. destruct Iy as [_ Fy]. unfold f0 in Fy. rewrite Ey in Fy. apply negb_true_iff in Fy.
        assert (existsb (Z.eqb (e_tok x)) ts = true); [|congruence]. apply existsb_exists. exists (e_tok x). split; auto. apply Z.eqb_refl.
      * rewrite (rf_counter _ _ R1) in Y. cbn [snd] in Y. pose proof (rf_range _ _ R x IA) as Z1. cbn [snd] in Z1. lia.
Qed.

End Notify.
