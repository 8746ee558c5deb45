(** Facts on parse_descriptor. *)
From Coq Require Import List String Bool Arith Lia.
From Verif Require Import Base Util UtilFacts Descriptor.
Import ListNotations.
Open Scope list_scope.

(** ** The decorators are restored *)
Definition scoped {A} (m : M A) : Prop := forall s, exists ext,
  fst (m s) = s ++ ext /\ forall a, snd (m s) = Ok a -> ext = [].
Lemma scoped_lift {A} (r : res A) : scoped (lift r).
Proof. intros s. exists []. rewrite app_nil_r. auto. Qed.
Lemma scoped_ret {A} (a : A) : scoped (ret a).
Proof. intros s. exists []. rewrite app_nil_r. auto. Qed.
Lemma scoped_bind {A B} (m : M A) (f : A -> M B) : scoped m -> (forall a, scoped (f a)) -> scoped (bind m f).
Proof.
  intros Hm Hf s. unfold bind. destruct (Hm s) as (e1 & E1 & O1). destruct (m s) as [s1 [a|e]]; cbn in *.
  - rewrite (O1 a eq_refl), app_nil_r in E1. subst. apply Hf.
  - exists e1. split; [assumption|]. discriminate.
Qed.
Lemma scoped_mapM {A B} (f : A -> M B) l : (forall a, scoped (f a)) -> scoped (mapM f l).
Proof.
  intros Hf. induction l as [|x l IH]; [apply scoped_ret|]. cbn. apply scoped_bind; [apply Hf|]. intros y.
  apply scoped_bind; [exact IH|]. intros ys. apply scoped_ret.
Qed.
Lemma scoped_state {A} (f : list string -> res A) : scoped (fun s => (s, f s)).
Proof. intros s. exists []. rewrite app_nil_r. auto. Qed.
Lemma del_last {A} (s : list A) o : del_at (List.length s) (s ++ [o]) = s.
Proof. induction s as [|a s IH]; [reflexivity|]. cbn. f_equal. exact IH. Qed.

Section Facts.
Context {R C X : Type} (w : world R C X).
Notation pv := (pv R C X).
Notation pd := (parse_descriptor w).

Lemma scoped_decorator rec k v fr cur : scoped (rec fr cur v) -> scoped (decorator_key w rec k v fr cur).
Proof.
  intros H s. unfold decorator_key, bind. destruct (H (s ++ [drop 1 k])) as (e & E & O).
  destruct (rec fr cur v (s ++ [drop 1 k])) as [s1 [a|x]]; cbn in *.
  - rewrite (O a eq_refl), app_nil_r in E. subst. rewrite del_last. exists []. rewrite app_nil_r. auto.
  - exists (drop 1 k :: e). split; [|discriminate]. rewrite E, <- app_assoc. reflexivity.
Qed.
Lemma scoped_function rec k v cur : (forall fr cur v, scoped (rec fr cur v)) -> scoped (function_key w rec k v cur).
Proof.
  intros H. unfold function_key. apply scoped_bind; [apply scoped_lift|]. intros kt. apply scoped_bind; [apply H|]. intros fa.
  apply scoped_bind; [apply scoped_lift|]. intros [args kw]. apply scoped_bind; [apply scoped_lift|]. intros [cu ar]. apply scoped_lift.
Qed.
Lemma scoped_loop rec : (forall fr cur v, scoped (rec fr cur v)) ->
  forall items n fr cur vals, scoped (items_loop w rec n fr items cur vals).
Proof.
  intros H. induction items as [|[k v] items IH]; intros n fr cur vals; [apply scoped_ret|]. cbn [items_loop].
  assert (P : forall v, scoped (match cur with Some _ => lift (Err EExc)
             | None => bind (plain_key rec v) (fun v => items_loop w rec n fr items cur (dset vals k v)) end)).
  { intros v'. destruct cur; [apply scoped_lift|]. apply scoped_bind; [|intros; apply IH].
    unfold plain_key. destruct v'; try apply scoped_ret; apply H. }
  destruct (starts "@" k).
  - apply scoped_bind; [apply scoped_decorator, H|]. intros v'. destruct v'; try apply IH;
      (destruct (negb (String.eqb (drop 1 k) "args")); [destruct (negb (n =? 1)); [apply scoped_lift|apply scoped_ret]|apply P]).
  - destruct (starts "$" k); [|apply P]. apply scoped_bind; [apply scoped_function, H|]. intros; apply IH.
Qed.
Theorem parse_scoped : forall fuel fr cur (d : pv), scoped (pd fuel fr cur d).
Proof.
  induction fuel as [|fuel IH]; intros fr cur d; [apply scoped_lift|]. cbn [parse_descriptor].
  destruct d; try (destruct fr; [apply scoped_state|apply scoped_lift]).
  - destruct fr; [|apply scoped_lift]. apply scoped_bind; [apply scoped_mapM, IH|]. intros; apply scoped_ret.
  - apply scoped_loop, IH.
Qed.
Theorem decorators_restored fuel fr cur (d : pv) s s' v : pd fuel fr cur d s = (s', Ok v) -> s' = s.
Proof.
  intros E. destruct (parse_scoped fuel fr cur d s) as (e & E1 & O). rewrite E in *. cbn in *.
  rewrite (O v eq_refl), app_nil_r in E1. exact E1.
Qed.

(** ** Depth *)
Lemma list_max_in n l : In n l -> n <= list_max l.
Proof. intros H. pose proof (proj1 (list_max_le l (list_max l)) (le_n _)) as G. rewrite Forall_forall in G. auto. Qed.
Lemma depth_list (l : list pv) m : depth (PList l) <= S m <-> Forall (fun v => depth v <= m) l.
Proof.
  cbn [depth]. rewrite <- Nat.succ_le_mono, list_max_le. rewrite !Forall_forall. split.
  - intros H v Hv. apply H, in_map, Hv.
  - intros H n Hn. apply in_map_iff in Hn. destruct Hn as (v & <- & Hv). auto.
Qed.
Lemma depth_dict (d : dict pv) m : depth (PDict d) <= S m <-> Forall (fun kv => depth (snd kv) <= m) d.
Proof.
  cbn [depth]. rewrite <- Nat.succ_le_mono, list_max_le. rewrite !Forall_forall. split.
  - intros H v Hv. apply H, in_map_iff. eauto.
  - intros H n Hn. apply in_map_iff in Hn. destruct Hn as (v & <- & Hv). auto.
Qed.
Lemma forall_dset (P : string * pv -> Prop) (d : dict pv) k v : (forall k', P (k', v)) -> Forall P d -> Forall P (dset d k v).
Proof.
  intros Hv. induction 1 as [|[a b] d Ha Hd IH]; cbn; [auto|]. destruct (String.eqb k a); constructor; auto.
Qed.
Lemma bind_ok {A B} (m : M A) (f : A -> M B) s s' b : bind m f s = (s', Ok b) -> exists s1 a, m s = (s1, Ok a) /\ f a s1 = (s', Ok b).
Proof. unfold bind. destruct (m s) as [s1 [a|e]]; [|discriminate]. eauto. Qed.

Definition shallow (rec : bool -> option C -> pv -> M pv) : Prop := forall fr cur v s s' v',
  rec fr cur v s = (s', Ok v') -> depth v' <= depth v.
Lemma mapM_shallow (f : pv -> M pv) m l : (forall v s s' v', f v s = (s', Ok v') -> depth v' <= depth v) ->
  Forall (fun v => depth v <= m) l -> forall s s' l', mapM f l s = (s', Ok l') -> Forall (fun v => depth v <= m) l'.
Proof.
  intros Hf. induction 1 as [|v l Hv _ IH]; intros s s' l' E; cbn in E.
  - injection E as <- <-. constructor.
  - apply bind_ok in E. destruct E as (s1 & y & E1 & E). apply bind_ok in E. destruct E as (s2 & ys & E2 & E).
    injection E as <- <-. constructor; [|eapply IH, E2]. apply Hf in E1. lia.
Qed.
Lemma decorator_shallow rec k v fr cur s s' v' : shallow rec -> decorator_key w rec k v fr cur s = (s', Ok v') -> depth v' <= depth v.
Proof.
  intros H E. unfold decorator_key in E. apply bind_ok in E. destruct E as (s1 & a & E1 & E). apply H in E1.
  apply (f_equal snd) in E. cbn [snd] in E. destruct (starts "log" (drop 1 k)); [|injection E as <-; exact E1].
  destruct (base_of w (drop 1 k)); [|discriminate]. cbn [rbind] in E. destruct a; try discriminate; cbn in E.
  - destruct (w_pow w a0 r); [|discriminate]. injection E as <-. cbn. lia.
  - destruct (w_rpow w a0 c); [|discriminate]. injection E as <-. cbn. lia.
Qed.
Lemma plain_shallow rec v s s' v' : shallow rec -> plain_key rec v s = (s', Ok v') -> depth v' <= depth v.
Proof. intros H E. unfold plain_key in E. destruct v; try (injection E as <- <-; lia); apply H in E; exact E. Qed.
Lemma loop_shallow rec m : shallow rec -> forall items n fr cur vals s s' v',
  Forall (fun kv => depth (snd kv) <= m) items -> Forall (fun kv => depth (snd kv) <= m) vals ->
  items_loop w rec n fr items cur vals s = (s', Ok v') -> depth v' <= S m.
Proof.
  intros H. induction items as [|[k v] items IH]; intros n fr cur vals s s' v' Hi Hv E; cbn [items_loop] in E.
  - injection E as <- <-. destruct cur; [cbn; lia|]. apply depth_dict, Hv.
  - inversion Hi as [|? ? Hk Hi']; subst. cbn in Hk.
    assert (P : forall u s s' v', depth u <= m -> (match cur with Some _ => lift (Err EExc)
             | None => bind (plain_key rec u) (fun v => items_loop w rec n fr items cur (dset vals k v)) end) s = (s', Ok v') -> depth v' <= S m).
    { intros u t t' u' Hu E'. destruct cur; [discriminate|]. apply bind_ok in E'. destruct E' as (s1 & a & E1 & E').
      apply plain_shallow in E1; [|exact H]. eapply IH; [exact Hi'| |exact E']. apply forall_dset; [|exact Hv]. cbn. lia. }
    destruct (starts "@" k).
    + apply bind_ok in E. destruct E as (s1 & a & E1 & E). apply decorator_shallow in E1; [|exact H].
      assert (Ha : depth a <= m) by lia.
      destruct a; try (eapply IH; [exact Hi'|exact Hv|exact E]);
        (destruct (negb (String.eqb (drop 1 k) "args")); [destruct (negb (n =? 1)); [discriminate|]; injection E as <- <-; lia|]);
        (eapply P; [|exact E]; exact Ha).
    + destruct (starts "$" k).
      * apply bind_ok in E. destruct E as (s1 & a & E1 & E). eapply IH; [exact Hi'|exact Hv|exact E].
      * eapply P; [|exact E]. exact Hk.
Qed.
Lemma literal_leaf s v v' : depth v = 0 -> literal w s v = Ok v' -> depth v' = 0.
Proof.
  intros Hv E. unfold literal in E. destruct (asks "date" s).
  - destruct (w_date w v); [|discriminate]. injection E as <-. reflexivity.
  - destruct v; try (injection E as <-; assumption).
    destruct (asks "log" s); [destruct (w_ln w r); [|discriminate]; injection E as <-; reflexivity|].
    destruct (asks "log2" s); [destruct (w_log2 w r); [|discriminate]; injection E as <-; reflexivity|].
    destruct (asks "log10" s); [destruct (w_log10 w r); [|discriminate]; injection E as <-; reflexivity|].
    injection E as <-. reflexivity.
Qed.
Theorem parse_shallow : forall fuel, shallow (pd fuel).
Proof.
  induction fuel as [|fuel IH]; intros fr cur d s s' v E; [discriminate|]. cbn [parse_descriptor] in E.
  destruct d; try (destruct fr; [|discriminate]; injection E as <- E; apply literal_leaf in E; [lia|reflexivity]).
  - destruct fr; [|discriminate]. apply bind_ok in E. destruct E as (s1 & l' & E1 & E). injection E as <- <-.
    destruct (depth (PList l)) eqn:D; [discriminate|]. apply depth_list.
    eapply mapM_shallow; [|apply depth_list; rewrite D; lia|exact E1]. intros u t t' u'. apply IH.
  - destruct (depth (PDict d)) eqn:D; [discriminate|].
    eapply loop_shallow; [exact IH| |constructor|exact E]. apply depth_dict. lia.
Qed.

(** ** The depth of a descriptor is fuel enough *)
Definition agree (m : nat) (r1 r2 : bool -> option C -> pv -> M pv) : Prop := forall fr cur v s,
  depth v <= m -> r1 fr cur v s = r2 fr cur v s.
Lemma bind_ext {A B} (m1 m2 : M A) (f1 f2 : A -> M B) s : m1 s = m2 s ->
  (forall s1 a, m1 s = (s1, Ok a) -> f1 a s1 = f2 a s1) -> bind m1 f1 s = bind m2 f2 s.
Proof. intros E H. unfold bind. rewrite <- E. destruct (m1 s) as [s1 [a|e]]; [apply H; reflexivity|reflexivity]. Qed.
Lemma mapM_ext (f1 f2 : pv -> M pv) m l : (forall v s, depth v <= m -> f1 v s = f2 v s) ->
  Forall (fun v => depth v <= m) l -> forall s, mapM f1 l s = mapM f2 l s.
Proof.
  intros Hf. induction 1 as [|v l Hv _ IH]; intros s; [reflexivity|]. cbn. apply bind_ext; [apply Hf, Hv|].
  intros s1 y _. apply bind_ext; [apply IH|]. reflexivity.
Qed.
Lemma split_shallow (fa : pv) args kw m : split_args fa = Ok (args, kw) -> depth fa <= m -> Forall (fun v => depth v <= m) args.
Proof.
  unfold split_args. intros E H.
  assert (L : forall l, depth (PList l) <= m -> Forall (fun v : pv => depth v <= m) l).
  { intros l Hl. destruct m; [cbn in Hl; lia|]. apply depth_list in Hl. eapply Forall_impl; [|exact Hl]. cbn; intros; lia. }
  destruct fa as [r|s|x|c|l|d]; cbn [dget] in E; try (injection E as <- <-; auto; repeat constructor; exact H).
  destruct (dget "@args" d) as [a|] eqn:Ed; [|injection E as <- <-; constructor].
  destruct a as [| | | |l|]; try discriminate. injection E as <- <-. apply L.
  destruct m; [cbn in H; lia|]. apply depth_dict in H. clear -Ed H.
  induction H as [|[k v] d Hk _ IH]; [discriminate|]. cbn [dget] in Ed. destruct (String.eqb "@args" k); [|auto].
  injection Ed as ->. cbn [snd] in Hk. lia.
Qed.
Lemma parse_ext m r1 r2 v : agree m r1 r2 -> depth v <= m -> parse w (descr0 r1) v = parse w (descr0 r2) v.
Proof. intros H Hv. unfold parse. destruct v; try reflexivity. unfold descr0. rewrite H by exact Hv. reflexivity. Qed.
Lemma function_ext m r1 r2 k v cur s : agree m r1 r2 -> shallow r1 -> depth v <= m ->
  function_key w r1 k v cur s = function_key w r2 k v cur s.
Proof.
  intros H H1 Hv. unfold function_key. apply bind_ext; [reflexivity|]. intros s1 kt _.
  apply bind_ext; [apply H, Hv|]. intros s2 fa Efa. apply H1 in Efa.
  apply bind_ext; [reflexivity|]. intros s3 [args kw] Ea. unfold lift in Ea. injection Ea as <- Ea.
  apply bind_ext; [|reflexivity]. f_equal. unfold lift. destruct (from_instance kt), cur; try reflexivity.
  destruct args as [|a rest]; [reflexivity|]. rewrite (parse_ext m r1 r2); [reflexivity|exact H|].
  apply split_shallow with (m := m) in Ea; [|lia]. inversion Ea; assumption.
Qed.
Lemma loop_ext m r1 r2 : agree m r1 r2 -> shallow r1 -> forall items n fr cur vals s,
  Forall (fun kv => depth (snd kv) <= m) items ->
  items_loop w r1 n fr items cur vals s = items_loop w r2 n fr items cur vals s.
Proof.
  intros H H1. induction items as [|[k v] items IH]; intros n fr cur vals s Hi; [reflexivity|]. cbn [items_loop].
  inversion Hi as [|? ? Hk Hi']; subst. cbn in Hk.
  assert (P : forall u s, depth u <= m -> (match cur with Some _ => lift (Err EExc)
             | None => bind (plain_key r1 u) (fun v => items_loop w r1 n fr items cur (dset vals k v)) end) s =
            (match cur with Some _ => lift (Err EExc)
             | None => bind (plain_key r2 u) (fun v => items_loop w r2 n fr items cur (dset vals k v)) end) s).
  { intros u t Hu. destruct cur; [reflexivity|]. apply bind_ext.
    - unfold plain_key. destruct u; try reflexivity; apply H, Hu.
    - intros s1 a _. apply IH, Hi'. }
  destruct (starts "@" k).
  - apply bind_ext.
    + unfold decorator_key. apply bind_ext; [apply H, Hk|reflexivity].
    + intros s1 a E. apply decorator_shallow in E; [|exact H1].
      assert (Ha : depth a <= m) by lia.
      destruct a; try (apply IH, Hi');
        (destruct (negb (String.eqb (drop 1 k) "args")); [destruct (negb (n =? 1)); reflexivity|]);
        (apply P; exact Ha).
  - destruct (starts "$" k); [|apply P, Hk]. apply bind_ext; [apply (function_ext m); assumption|]. intros; apply IH, Hi'.
Qed.
Theorem parse_fuel : forall f1 f2 fr cur (d : pv) s, depth d < f1 -> depth d < f2 -> pd f1 fr cur d s = pd f2 fr cur d s.
Proof.
  induction f1 as [|f1 IH]; intros f2 fr cur d s H1 H2; [lia|]. destruct f2 as [|f2]; [lia|]. cbn [parse_descriptor].
  destruct d; try reflexivity.
  - destruct fr; [|reflexivity]. apply bind_ext; [|reflexivity].
    destruct (depth (PList l)) as [|m] eqn:D; [discriminate|].
    apply (mapM_ext _ _ m); [|apply depth_list; lia]. intros v t Hv. apply IH; lia.
  - destruct (depth (PDict d)) as [|m] eqn:D; [discriminate|].
    apply (loop_ext m); [|apply parse_shallow|apply depth_dict; lia]. intros fr' cur' v t Hv. apply IH; lia.
Qed.
End Facts.
