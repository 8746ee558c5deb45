(** End-to-end statements about observers, and what goes wrong. *)
From Coq Require Import List ZArith QArith Qcanon Bool Lia Permutation.
From Verif Require Import Base Num NumFacts Interval IntervalFacts Curve Observer ObserverSpec ObserverFacts ObserverNotify PointsOps UpdFacts PointsDec.
Import ListNotations.

Definition reached (n0 : Z) (ops : list (rop xq)) : reg xq := fst (run code_step (reg_init n0) ops).
Definition live (n0 : Z) (ops : list (rop xq)) : list (entry xq) := fst (fst (run spec_step ([], n0) ops)).
Definition counter (n0 : Z) (ops : list (rop xq)) : Z := snd (fst (run spec_step ([], n0) ops)).

Lemma reached_refines n0 ops : (0 <= n0)%Z -> refines (reached n0 ops) (live n0 ops, counter n0 ops).
Proof.
  intros H. unfold reached, live, counter. rewrite <- surjective_pairing. apply refines_run. now apply refines_init.
Qed.

Lemma top_registry n0 ops : (0 <= n0)%Z ->
  snd (run code_step (reg_init n0) ops) = snd (run spec_step ([], n0) ops) /\
  r_tokens (reached n0 ops) = map e_tok (order (live n0 ops)).
Proof.
  intros H. split.
  - apply refines_run. now apply refines_init.
  - apply (rf_tokens _ _ (reached_refines n0 ops H)).
Qed.

Lemma top_begin_calls n0 ops alive fuel u d u' D : (0 <= n0)%Z -> passive (live n0 ops) ->
  (length (live n0 ops) < fuel)%nat -> begin_update u d = (u', Some D) ->
  ob_begin alive fuel (u, reached n0 ops) d =
    ((u', reached n0 ops), flat_map (begin_calls D) (order (live n0 ops)), Ok tt).
Proof.
  intros H P F E. unfold ob_begin. cbn [fst snd]. rewrite E.
  rewrite (begin_loop_passive alive D _ _ _ (reached_refines n0 ops H) P (length (order (live n0 ops))) 0); auto.
  rewrite (Permutation_length (order_perm _)). auto.
Qed.
Lemma top_end_calls n0 ops alive u d u' D : (0 <= n0)%Z -> passive (live n0 ops) ->
  end_update u d = (u', Some D) ->
  ob_end alive (u, reached n0 ops) d =
    ((u', reached n0 ops), flat_map (end_calls D) (order (live n0 ops)), Ok tt).
Proof.
  intros H P E. unfold ob_end. cbn [fst snd]. rewrite E. rewrite (proj2 (top_registry n0 ops H)).
  rewrite (end_loop_passive alive D _ _ _ (reached_refines n0 ops H) P); auto. apply incl_refl.
Qed.

(** At most one call per observer. *)
Lemma calls_nodup (f : entry xq -> list (call xq)) A : NoDup (map e_tok A) ->
  (forall e, f e = [] \/ exists k, f e = [k] /\ k_tok k = e_tok e) -> NoDup (map k_tok (flat_map f A)).
Proof.
  intros ND F. induction A as [|e A IH]; simpl; [constructor|]. inversion ND; subst.
  destruct (F e) as [->|[k [-> K]]]; simpl; auto. constructor; auto.
  intros I. apply in_map_iff in I. destruct I as [k' [E I]]. apply in_flat_map in I. destruct I as [e' [I1 I2]].
  destruct (F e') as [Z0|[k2 [Z0 K2]]]; rewrite Z0 in I2; [contradiction|]. destruct I2 as [->|[]].
  apply H1. rewrite <- K, <- E, K2. now apply in_map.
Qed.
Lemma begin_calls_one (d : ival xq) e : begin_calls d e = [] \/ exists k, begin_calls d e = [k] /\ k_tok k = e_tok e.
Proof. unfold begin_calls. destruct (e_begin e); auto. destruct (i_intersects _ _); auto. right. eexists. split; reflexivity. Qed.
Lemma end_calls_one (d : ival xq) e : end_calls d e = [] \/ exists k, end_calls d e = [k] /\ k_tok k = e_tok e.
Proof. unfold end_calls. destruct (e_end e); auto. destruct (i_intersects _ _); auto. right. eexists. split; reflexivity. Qed.
Lemma top_at_most_once n0 ops (d : ival xq) : (0 <= n0)%Z ->
  NoDup (map k_tok (flat_map (begin_calls d) (order (live n0 ops)))) /\
  NoDup (map k_tok (flat_map (end_calls d) (order (live n0 ops)))).
Proof.
  intros H. pose proof (reached_refines n0 ops H) as R.
  split; (apply calls_nodup; [apply nodup_order, (rf_nodup _ _ R)|]); [apply begin_calls_one|apply end_calls_one].
Qed.

(** A complete update of an idle curve. *)
Lemma top_round n0 ops alive fuel u d : (0 <= n0)%Z -> passive (live n0 ops) -> (length (live n0 ops) < fuel)%nat ->
  u_begin u = i_empty -> u_end u = i_empty -> iok d -> i_is_empty d = false ->
  exists u1, ob_begin alive fuel (u, reached n0 ops) d =
    ((u1, reached n0 ops), flat_map (begin_calls d) (order (live n0 ops)), Ok tt) /\
  is_updating u1 = true /\
  ob_end alive (u1, reached n0 ops) d =
    ((upd_init, reached n0 ops), flat_map (end_calls d) (order (live n0 ops)), Ok tt).
Proof.
  intros H P F U1 U2 Hd Hn. exists (mkU d i_empty (u_dom u)).
  split; [apply top_begin_calls; auto; apply begin_idle; auto; split; auto|].
  split; [unfold is_updating; cbn [u_begin]; now rewrite Hn|].
  apply top_end_calls; auto. now apply end_begun.
Qed.
Lemma top_empty_update (c : ocurve) alive fuel (d : ival xq) : i_is_empty d = true ->
  ob_begin alive fuel c d = (c, [], Ok tt) /\ ob_end alive c d = (c, [], Ok tt).
Proof.
  intros H. destruct c. unfold ob_begin, ob_end, begin_update, end_update. cbn [fst snd]. rewrite H. auto.
Qed.

(** Tokens *)
Lemma counter_mono (ops : list (rop xq)) : forall s, (snd s <= snd (fst (run spec_step s ops)))%Z.
Proof.
  induction ops as [|o ops IH]; intros s; simpl; [lia|].
  destruct (spec_step s o) as [s1 q] eqn:E. specialize (IH s1). destruct (run spec_step s1 ops) as [s2 qs]. cbn [fst] in *.
  assert (snd s <= snd s1)%Z; [|lia]. destruct s as [A n]. cbn [snd].
  destruct o as [obj dom b e a p|t|al ob|k]; cbn in E;
    [destruct obj, b, e, a; injection E as <- _; cbn; lia|injection E as <- _; cbn; lia..].
Qed.
Lemma results_bound (ops : list (rop xq)) : forall (s : list (entry xq) * Z) q, (0 <= snd s)%Z -> In (Ok q) (snd (run spec_step s ops)) ->
  q = 0%Z \/ (snd s < q <= snd (fst (run spec_step s ops)))%Z.
Proof.
  induction ops as [|o ops IH]; intros s q P I; simpl in I; [contradiction|]. simpl.
  destruct (spec_step s o) as [s1 q1] eqn:E. pose proof (counter_mono ops s1) as M. specialize (IH s1 q).
  destruct (run spec_step s1 ops) as [s2 qs]. cbn [fst snd] in *.
  assert (X : (snd s <= snd s1)%Z /\ (q1 = Ok q -> q = 0%Z \/ q = (snd s + 1)%Z /\ snd s1 = (snd s + 1)%Z)).
  { destruct s as [A n]. cbn [snd] in *.
    destruct o as [obj dom b e a p|t|al ob|k]; cbn in E;
      [destruct obj, b, e, a; injection E as <- <-; cbn; (split; [lia|]); intros Q; try discriminate Q; injection Q as <-; auto
      |injection E as <- <-; cbn; (split; [lia|]); intros Q; injection Q as <-; auto..]. }
  destruct X as [X1 X2]. destruct I as [I|I].
  - destruct (X2 I) as [->|[-> Y]]; auto. right. lia.
  - destruct (IH ltac:(lia) I) as [->|Y]; auto. right. lia.
Qed.

(** Every token returned later is larger than every token returned earlier. *)
Lemma run_app {S} (step : S -> rop xq -> S * res Z) l1 : forall s l2, run step s (l1 ++ l2) =
  (fst (run step (fst (run step s l1)) l2), snd (run step s l1) ++ snd (run step (fst (run step s l1)) l2)).
Proof.
  induction l1 as [|o l1 IH]; intros s l2; simpl; [apply surjective_pairing|].
  destruct (step s o) as [s1 q]. rewrite IH. destruct (run step s1 l1) as [s2 qs]. reflexivity.
Qed.
Lemma top_tokens_fresh n0 ops1 ops2 t1 t2 : (0 <= n0)%Z ->
  In (Ok t1) (snd (run code_step (reg_init n0) ops1)) ->
  In (Ok t2) (snd (run code_step (reached n0 ops1) ops2)) -> t2 <> 0%Z -> (t1 < t2)%Z /\ (0 < t2)%Z.
Proof.
  intros H I1 I2 Z0. pose proof (reached_refines n0 ops1 H) as R. pose proof (rf_pos _ _ R) as P. cbn [snd] in P.
  rewrite (proj1 (refines_run ops2 _ _ R)) in I2. rewrite (proj1 (top_registry n0 ops1 H)) in I1.
  destruct (results_bound ops2 (live n0 ops1, counter n0 ops1) _ P I2) as [?|Y]; [congruence|]. cbn [snd] in Y.
  destruct (results_bound ops1 ([], n0) _ H I1) as [->|Y1]; [lia|]. fold (counter n0 ops1) in Y1. lia.
Qed.

Lemma top_add n0 ops obj dom b e autoremove p : (0 <= n0)%Z -> (b <> None \/ e <> None) -> (autoremove = false \/ obj <> None) ->
  exists t, snd (add_observer (reached n0 ops) obj dom b e autoremove p) = Ok t /\ (0 < t)%Z /\
    r_tokens (fst (add_observer (reached n0 ops) obj dom b e autoremove p)) =
      (if p then t :: r_tokens (reached n0 ops) else r_tokens (reached n0 ops) ++ [t]) /\
    ~ In t (r_tokens (reached n0 ops)).
Proof.
  intros H HB HO. pose proof (reached_refines n0 ops H) as R. pose proof (rf_counter _ _ R) as C. pose proof (rf_pos _ _ R) as P. cbn [snd] in *.
  exists (counter n0 ops + 1)%Z.
  assert (NI : ~ In (counter n0 ops + 1)%Z (r_tokens (reached n0 ops))).
  { rewrite (rf_tokens _ _ R). cbn [fst]. intros I. apply in_map_iff in I. destruct I as [x [E I]].
    apply (proj1 (in_order _ _)) in I. apply (rf_range _ _ R) in I. cbn [snd] in I. lia. }
  unfold add_observer. rewrite C.
  destruct b as [b|], e as [e|]; try (destruct HB; congruence);
    destruct obj as [obj|], autoremove; try (destruct HO; congruence); cbn [fst snd r_tokens]; repeat split; auto; lia.
Qed.
Lemma top_add_none (r : reg xq) obj dom autoremove p : add_observer r obj dom None None autoremove p = (r, Ok 0%Z).
Proof. reflexivity. Qed.

(** Removal *)
Lemma top_remove_token n0 ops t : (0 <= n0)%Z ->
  let r' := remove_token (reached n0 ops) t in
  r_tokens r' = filter (fun x => negb (x =? t)%Z) (r_tokens (reached n0 ops)) /\ ~ In t (r_tokens r').
Proof.
  intros H r'. pose proof (reached_refines n0 ops H) as R. pose proof (refines_remtok _ _ _ t R) as R'. fold r' in R'.
  assert (E : r_tokens r' = filter (fun x => negb (x =? t)%Z) (r_tokens (reached n0 ops))).
  { rewrite (rf_tokens _ _ R'), (rf_tokens _ _ R). cbn [fst]. now rewrite filter_map_tok, filter_order. }
  split; auto. rewrite E. intros I. apply filter_In in I. rewrite Z.eqb_refl in I. destruct I; discriminate.
Qed.
Lemma top_remove_final n0 ops t u l : (0 <= n0)%Z -> In t (r_tokens (reached n0 ops)) ->
  forall k, In k (snd (oop_run (u, remove_token (reached n0 ops) t) l)) -> k_tok k <> t.
Proof.
  intros H I. pose proof (reached_refines n0 ops H) as R. pose proof (refines_remtok _ _ _ t R) as R'.
  apply removed_never_called; cbn [snd].
  - eexists; eauto.
  - apply (top_remove_token n0 ops t H).
  - rewrite (rf_counter _ _ R'). cbn [snd]. rewrite (rf_tokens _ _ R) in I. cbn [fst] in I. apply in_map_iff in I.
    destruct I as [x [<- I]]. apply (proj1 (in_order _ _)) in I. apply (rf_range _ _ R) in I. cbn [snd] in I. lia.
Qed.
Lemma top_remove_obj n0 ops alive o : (0 <= n0)%Z ->
  exists r', remove_obj alive (reached n0 ops) o = (r', Ok tt) /\
    r_tokens r' = map e_tok (order (filter (fun e => negb (drops alive o e)) (live n0 ops))).
Proof.
  intros H. pose proof (reached_refines n0 ops H) as R. destruct (refines_remobj _ _ _ alive o R) as [r' [E R']].
  exists r'. split; auto. apply (rf_tokens _ _ R').
Qed.
Lemma top_remove_obj_final n0 ops alive o u l e : (0 <= n0)%Z -> In e (live n0 ops) -> drops alive o e = true ->
  forall k, In k (snd (oop_run (u, fst (remove_obj alive (reached n0 ops) o)) l)) -> k_tok k <> e_tok e.
Proof.
  intros H I D. pose proof (reached_refines n0 ops H) as R. destruct (refines_remobj _ _ _ alive o R) as [r' [E R']].
  rewrite E. cbn [fst]. apply removed_never_called; cbn [snd].
  - eexists; eauto.
  - rewrite (rf_tokens _ _ R'). cbn [fst]. intros J. apply in_map_iff in J. destruct J as [x [Ex J]].
    apply (proj1 (in_order _ _)) in J. apply filter_In in J. destruct J as [J1 J2].
    pose proof (find_in _ _ (rf_nodup _ _ R) I) as F1. pose proof (find_in _ _ (rf_nodup _ _ R) J1) as F2. rewrite Ex in F2.
    cbn [fst] in *. assert (x = e) by congruence. subst x. rewrite D in J2. discriminate.
  - rewrite (rf_counter _ _ R'). cbn [snd]. apply (rf_range _ _ R) in I. cbn [snd] in I. lia.
Qed.

(** Callbacks that remove observers *)
Lemma top_end_backward n0 ops alive u d u' D : (0 <= n0)%Z -> end_update u d = (u', Some D) ->
  (forall l1 e l2, order (live n0 ops) = l1 ++ e :: l2 ->
     exists ts, removes (e_end e) ts /\ forall e', In e' l2 -> ~ In (e_tok e') ts) ->
  exists r', ob_end alive (u, reached n0 ops) d = ((u', r'), flat_map (end_calls D) (order (live n0 ops)), Ok tt).
Proof.
  intros H E B. pose proof (reached_refines n0 ops H) as R. unfold ob_end. cbn [fst snd]. rewrite E, (rf_tokens _ _ R). cbn [fst].
  destruct (end_loop_backward alive D (order (live n0 ops)) _ _ _ R) as [r' [K _]]; auto.
  { intros x Hx. now apply in_order. }
  rewrite K. eauto.
Qed.
Lemma top_begin_no_raise n0 ops alive fuel u d : (0 <= n0)%Z -> (length (live n0 ops) < fuel)%nat ->
  Forall (fun e => exists ts, removes (e_begin e) ts) (live n0 ops) ->
  snd (ob_begin alive fuel (u, reached n0 ops) d) = Ok tt.
Proof.
  intros H F P. pose proof (reached_refines n0 ops H) as R. unfold ob_begin. cbn [fst snd].
  destruct (begin_update u d) as [u' [D|]]; auto.
  destruct (begin_loop_no_raise alive D fuel 0 _ _ _ R) as [r' [log [E _]]]; auto; [lia|]. rewrite E. reflexivity.
Qed.
Lemma top_begin_forward n0 ops alive fuel u d u' D : (0 <= n0)%Z -> (length (live n0 ops) < fuel)%nat ->
  begin_update u d = (u', Some D) ->
  (forall l1 e l2, order (live n0 ops) = l1 ++ e :: l2 ->
     exists ts, removes (e_begin e) ts /\ ~ In (e_tok e) ts /\ forall e', In e' l1 -> ~ In (e_tok e') ts) ->
  exists r' log, ob_begin alive fuel (u, reached n0 ops) d = ((u', r'), log, Ok tt) /\
    forall e, In e (live n0 ops) -> In (e_tok e) (r_tokens r') -> forall k, In k (begin_calls D e) -> In k log.
Proof.
  intros H F E P. pose proof (reached_refines n0 ops H) as R. unfold ob_begin. cbn [fst snd]. rewrite E.
  destruct (begin_loop_forward alive D fuel 0 _ _ _ R) as [r' [log [K G]]]; [exact F|lia|intros; eapply P; eauto|].
  rewrite K. exists r', log. split; auto. intros e I. apply G. now apply in_order.
Qed.

(** ** What goes wrong *)
Definition all_alive : nat -> bool := fun _ => true.
Definition pcb : cb xq := Cb 0 [].
Definition unit_iv : ival xq := i_closed (fz 0) (fz 1).

(** The first observer's end callback removes the second: KeyError, the third is not called. *)
Definition ops_end : list (rop xq) :=
  [RAdd None None None (Some (Cb 0 [ARemoveTok 2])) false false;
   RAdd None None None (Some pcb) false false;
   RAdd None None None (Some pcb) false false].
Lemma end_removal_raises : exists (ops : list (rop xq)) (u u' : upd xq) (d : ival xq) r ks,
  end_update u d = (u', Some d) /\ length (live 0 ops) = 3%nat /\
  ob_end all_alive (u, reached 0 ops) d = ((u', r), ks, Err EKey) /\
  r_tokens r = [1; 3]%Z /\ map k_tok ks = [1]%Z.
Proof.
  exists ops_end, (mkU unit_iv i_empty None), upd_init, unit_iv.
  eexists; eexists. split; [vm_compute; reflexivity|]. split; [vm_compute; reflexivity|].
  split; [vm_compute; reflexivity|]. split; reflexivity.
Qed.

(** The first observer's begin callback removes itself: the second is skipped. *)
Definition ops_begin : list (rop xq) :=
  [RAdd None None (Some (Cb 0 [ARemoveTok 1])) None false false;
   RAdd None None (Some pcb) None false false;
   RAdd None None (Some pcb) None false false].
Lemma begin_removal_skips : exists (ops : list (rop xq)) (u u' : upd xq) (d : ival xq) r ks,
  begin_update u d = (u', Some d) /\ length (live 0 ops) = 3%nat /\
  ob_begin all_alive 4 (u, reached 0 ops) d = ((u', r), ks, Ok tt) /\
  r_tokens r = [2; 3]%Z /\ map k_tok ks = [1; 3]%Z.
Proof.
  exists ops_begin, upd_init, (mkU unit_iv i_empty None), unit_iv.
  eexists; eexists. split; [vm_compute; reflexivity|]. split; [vm_compute; reflexivity|].
  split; [vm_compute; reflexivity|]. split; reflexivity.
Qed.

(** A begin callback that registers a prioritised observer (as creating any
    derived curve does) makes begin_update loop forever. *)
Definition adder : cb xq := Cb 0 [AAdd None None (Some pcb) None true].
Definition ops_add : list (rop xq) := [RAdd None None (Some adder) None false false].
Lemma unit_hits_all : i_intersects unit_iv i_infinite = true.
Proof. vm_compute. reflexivity. Qed.
Lemma begin_add_loops fuel : exists (ops : list (rop xq)), length (live 0 ops) = 1%nat /\
  snd (ob_begin all_alive fuel (upd_init, reached 0 ops) unit_iv) = Err EFuel.
Proof.
  exists ops_add. split; [reflexivity|].
  assert (G : forall f i (r : reg xq), nth_error (r_tokens r) i = Some 1%Z ->
    d_get (r_data r) 1 = Some (mkO None i_infinite (Some adder) None false false) ->
    snd (begin_loop all_alive f i unit_iv r) = Err EFuel).
  { induction f as [|f IH]; intros i r H1 H2; [reflexivity|]. cbn [begin_loop]. rewrite H1, H2. cbn [o_dom o_begin o_bw].
    rewrite unit_hits_all. cbn [cb_acts adder run_acts fold_left run_act add_observer fst].
    match goal with |- context [begin_loop all_alive f (S i) unit_iv ?r'] => specialize (IH (S i) r') end.
    destruct (begin_loop _ _ _ _ _) as [[? ?] ?]. cbn [snd]. apply IH; cbn [r_tokens r_data]; auto.
    unfold d_get in *. clear -H2. induction (r_data r) as [|p l IHl]; simpl in *; [discriminate|].
    destruct (fst p =? 1)%Z; auto. }
  unfold ob_begin. cbn [fst snd].
  replace (begin_update upd_init unit_iv) with (mkU unit_iv (T := xq) i_empty None, Some unit_iv) by (vm_compute; reflexivity).
  specialize (G fuel 0%nat (reached 0 ops_add) eq_refl eq_refl).
  destruct (begin_loop all_alive fuel 0 unit_iv (reached 0 ops_add)) as [[? ?] ?]. exact G.
Qed.

(** Nested updates, ended in the opposite order: two end notifications for two
    begin notifications of which the second end was never begun at that time. *)
Definition iv12 : ival xq := i_closed (fz 1) (fz 2).
Definition iv04 : ival xq := i_closed (fz 0) (fz 4).
Lemma nested_end_twice : exists (a b : ival xq) u1 u2 u3 u4,
  begin_update upd_init a = (u1, Some a) /\ begin_update u1 b = (u2, Some b) /\
  end_update u2 b = (u3, Some b) /\ is_updating u3 = false /\
  end_update u3 a = (u4, Some a).
Proof.
  exists iv12, iv04. do 4 eexists. repeat (split; [vm_compute; reflexivity|]). vm_compute; reflexivity.
Qed.
