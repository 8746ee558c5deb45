(** Facts on util.flatten and util.extend. *)
From Coq Require Import List String Bool Arith Lia Sorting.Sorted.
From Verif Require Import Base Util.
Import ListNotations.
Open Scope list_scope.

Section Tree.
Context {A : Type}.
Notation item := (item A).

(** What hangs at a path of positions, and the leaves. *)
Fixpoint sub (t : item) (p : list nat) : option item :=
  match p with
  | [] => Some t
  | i :: p' => match t with IIter l => match nth_error l i with Some x => sub x p' | None => None end | _ => None end
  end.
Definition leaf (x : item) : Prop := forall l, x <> IIter l.
Definition leaf_path (t : item) (p : list nat) : Prop := exists x, sub t p = Some x /\ leaf x.
(** One path is left of another: they part at some position, to the left and to the right. *)
Definition left_of (p q : list nat) : Prop := exists c i j p' q', p = c ++ i :: p' /\ q = c ++ j :: q' /\ i < j.

Section Ind.
Variable P : item -> Prop.
Hypothesis Hleaf : forall x, leaf x -> P x.
Hypothesis Hiter : forall l, Forall P l -> P (IIter l).
Fixpoint item_nested (t : item) : P t.
Proof.
  refine (match t with
    | IIter l => Hiter l ((fix go (l : list item) : Forall P l :=
                   match l with [] => Forall_nil P | x :: l' => Forall_cons x (item_nested x) (go l') end) l)
    | INone => _ | IStr s => _ | IMap m => _ | IAtom a => _ end);
  apply Hleaf; discriminate.
Defined.
End Ind.

Lemma flatten_leaf (x : item) : leaf x -> flatten x = [x].
Proof. intros H. destruct x; try reflexivity. destruct (H l eq_refl). Qed.
Lemma flatten_cons (x : item) l : flatten (IIter (x :: l)) = flatten x ++ flatten (IIter l).
Proof.
  unfold flatten. cbn [flatten_ is_none is_str is_map is_iterable orb negb]. f_equal.
  destruct x; reflexivity.
Qed.
Lemma flatten_nil : flatten (IIter []) = @nil item.
Proof. reflexivity. Qed.
Lemma flatten_app (l1 l2 : list item) : flatten (IIter (l1 ++ l2)) = flatten (IIter l1) ++ flatten (IIter l2).
Proof. induction l1 as [|x l1 IH]; [reflexivity|]. cbn [app]. rewrite !flatten_cons, IH, app_assoc. reflexivity. Qed.
Lemma flatten_leaves (t : item) : Forall leaf (flatten t).
Proof.
  induction t as [x H|l H] using item_nested.
  - rewrite flatten_leaf by assumption. repeat constructor; assumption.
  - induction H as [|x l Hx _ IH]; [constructor|]. rewrite flatten_cons. apply Forall_app. auto.
Qed.
Lemma flatten_flat (l : list item) : Forall leaf l -> flatten (IIter l) = l.
Proof.
  induction 1 as [|x l H _ IH]; [reflexivity|]. rewrite flatten_cons, (flatten_leaf x H), IH. reflexivity.
Qed.
Lemma flatten_again (t : item) : flatten (IIter (flatten t)) = flatten t.
Proof. apply flatten_flat, flatten_leaves. Qed.

Lemma left_cons i p q : left_of p q -> left_of (i :: p) (i :: q).
Proof. intros (c & a & b & p' & q' & -> & -> & H). exists (i :: c), a, b, p', q'. repeat split; auto. Qed.
Lemma sorted_cons i ps : StronglySorted left_of ps -> StronglySorted left_of (map (cons i) ps).
Proof.
  induction 1 as [|p ps _ IH H]; [constructor|]. cbn. constructor; [assumption|].
  rewrite Forall_forall in *. intros q Hq. apply in_map_iff in Hq. destruct Hq as (q0 & <- & Hq). apply left_cons, H, Hq.
Qed.
Lemma sorted_app (l1 l2 : list (list nat)) : StronglySorted left_of l1 -> StronglySorted left_of l2 ->
  (forall p q, In p l1 -> In q l2 -> left_of p q) -> StronglySorted left_of (l1 ++ l2).
Proof.
  induction 1 as [|p l1 _ IH H]; intros H2 Hc; [assumption|]. cbn. constructor.
  - apply IH; [assumption|]. intros; apply Hc; [right|]; assumption.
  - apply Forall_app. split; [assumption|]. rewrite Forall_forall. intros q Hq. apply Hc; [left; reflexivity|assumption].
Qed.

Theorem flatten_paths (t : item) : exists ps, StronglySorted left_of ps /\ (forall p, In p ps <-> leaf_path t p) /\
  map Some (flatten t) = map (sub t) ps.
Proof.
  induction t as [x Hx|l H] using item_nested.
  - exists [[]]. split; [repeat constructor|]. split.
    + intros p. split.
      * intros [<-|[]]. exists x. auto.
      * intros (y & E & Hy). destruct p as [|i p]; [left; reflexivity|].
        destruct x; try discriminate. destruct (Hx l eq_refl).
    + rewrite flatten_leaf by assumption. reflexivity.
  - enough (G : forall k, exists ps, StronglySorted left_of ps /\
        (forall p, In p ps <-> exists i p', p = (k + i) :: p' /\ leaf_path (IIter l) (i :: p')) /\
        map Some (flatten (IIter l)) = map (fun p => match p with i :: p' => sub (IIter l) ((i - k) :: p') | [] => None end) ps).
    { destruct (G 0) as (ps & S & HI & M). exists ps. split; [exact S|]. split.
      - intros p. rewrite HI. split.
        + intros (i & p' & -> & L). exact L.
        + intros L. destruct p as [|i p']; [|exists i, p'; auto].
          destruct L as (x & E & L). injection E as <-. destruct (L l eq_refl).
      - rewrite M. apply map_ext_in. intros p Hp. apply HI in Hp. destruct Hp as (i & p' & -> & _).
        replace (0 + i - 0) with i by lia. reflexivity. }
    induction H as [|x l Hx _ IH]; intros k.
    + exists []. split; [constructor|]. split; [|reflexivity].
      intros p. split; [intros []|]. intros (i & p' & _ & (y & E & _)). cbn in E. destruct i; discriminate.
    + destruct Hx as (px & Sx & Ix & Mx), (IH (Datatypes.S k)) as (ps & Ss & Is & Ms).
      exists (map (cons k) px ++ ps). split; [|split].
      * apply sorted_app; [apply sorted_cons, Sx|exact Ss|].
        intros p q Hp Hq. apply in_map_iff in Hp. destruct Hp as (p' & <- & Hp). apply Is in Hq.
        destruct Hq as (i & q' & -> & _). exists [], k, (Datatypes.S k + i), p', q'. repeat split; auto. lia.
      * intros p. rewrite in_app_iff, in_map_iff, Is. split.
        -- intros [(p' & <- & Hp)|(i & p' & -> & L)].
           ++ exists 0, p'. split; [f_equal; lia|]. apply Ix in Hp. exact Hp.
           ++ exists (Datatypes.S i), p'. split; [f_equal; lia|]. exact L.
        -- intros (i & p' & -> & L). destruct i as [|i].
           ++ left. exists p'. split; [f_equal; lia|]. apply Ix. exact L.
           ++ right. exists i, p'. split; [f_equal; lia|]. exact L.
      * rewrite flatten_cons, map_app, map_app, List.map_map. f_equal.
        -- rewrite Mx. apply map_ext. intros p. rewrite Nat.sub_diag. reflexivity.
        -- rewrite Ms. apply map_ext_in. intros p Hp. apply Is in Hp. destruct Hp as (i & p' & -> & _).
           replace (Datatypes.S k + i - Datatypes.S k) with i by lia.
           replace (Datatypes.S k + i - k) with (Datatypes.S i) by lia. reflexivity.
Qed.
End Tree.

Section Dicts.
Context {A : Type}.
Notation dict := (dict A).

Lemma dget_set (d : dict) k v k' : dget k' (dset d k v) = if String.eqb k' k then Some v else dget k' d.
Proof.
  induction d as [|[a b] d IH]; [reflexivity|]. cbn. destruct (String.eqb_spec k a) as [->|N].
  - cbn. destruct (String.eqb_spec k' a); reflexivity.
  - cbn. rewrite IH. destruct (String.eqb_spec k' a) as [->|]; [|reflexivity].
    destruct (String.eqb_spec a k) as [->|]; [congruence|reflexivity].
Qed.
Lemma dget_in (d : dict) k : dget k d <> None <-> In k (keys d).
Proof.
  unfold keys. induction d as [|[a b] d IH]; cbn; [tauto|]. destruct (String.eqb_spec k a) as [->|N].
  - split; [auto|discriminate].
  - rewrite IH. split; [auto|]. intros [->|H]; [congruence|exact H].
Qed.
Lemma keys_set (d : dict) k v : keys (dset d k v) = if in_dec string_dec k (keys d) then keys d else keys d ++ [k].
Proof.
  unfold keys. induction d as [|[a b] d IH]; [reflexivity|]. cbn [dset map fst in_dec].
  destruct (String.eqb_spec k a) as [->|N].
  - cbn [map fst]. destruct (in_dec string_dec a (a :: map fst d)) as [_|H]; [reflexivity|]. destruct H; left; reflexivity.
  - cbn [map fst]. rewrite IH. destruct (in_dec string_dec k (map fst d)) as [H|H], (in_dec string_dec k (a :: map fst d)) as [H'|H'];
      try reflexivity; [destruct H'; right; exact H|]. destruct H' as [->|H']; [congruence|contradiction].
Qed.

Lemma dget_copy (m d : dict) k : NoDup (keys m) ->
  dget k (dcopy d m) = match dget k m with Some v => Some v | None => dget k d end.
Proof.
  unfold dcopy. revert d. induction m as [|[a b] m IH]; intros d Hn; [reflexivity|]. inversion Hn; subst.
  cbn [fold_left fst snd dget]. rewrite IH by assumption. rewrite dget_set.
  destruct (String.eqb_spec k a) as [->|]; [|reflexivity].
  destruct (dget a m) eqn:E; [|reflexivity]. exfalso. apply H1, dget_in. congruence.
Qed.
Lemma keys_copy (m d : dict) : exists new, keys (dcopy d m) = keys d ++ new /\
  (forall k, In k new <-> In k (keys m) /\ ~ In k (keys d)) /\ NoDup new.
Proof.
  unfold dcopy. revert d. induction m as [|[a b] m IH]; intros d.
  - exists []. rewrite app_nil_r. split; [reflexivity|]. split; [cbn; tauto|constructor].
  - cbn [fold_left fst snd]. destruct (IH (dset d a b)) as (new & E & HI & Hn). rewrite E, keys_set in *.
    destruct (in_dec string_dec a (keys d)) as [Ha|Ha].
    + exists new. split; [reflexivity|]. split; [|exact Hn]. intros k. rewrite HI. cbn. split; [tauto|].
      intros ([<-|H] & H'); tauto.
    + exists (a :: new). rewrite <- app_assoc. split; [reflexivity|]. split.
      * intros k. cbn. rewrite HI, in_app_iff. cbn. split.
        -- intros [<-|H]; tauto.
        -- intros ([<-|H] & H'); [tauto|]. destruct (string_dec a k); tauto.
      * constructor; [|exact Hn]. rewrite HI, in_app_iff. cbn. tauto.
Qed.

(** The mappings among the flattened others. *)
Definition good_other (x : item A) : Prop := x = INone \/ exists m, x = IMap m /\ NoDup (keys m).
Fixpoint maps (l : list (item A)) : list dict :=
  match l with [] => [] | IMap m :: l' => m :: maps l' | _ :: l' => maps l' end.

Lemma copy_into_some m : forall d : dict, copy_into (Some d) m = (Some (dcopy d m), Ok tt).
Proof. unfold dcopy. induction m as [|[k v] m IH]; intros d; [reflexivity|]. cbn. apply IH. Qed.
Lemma extend_loop_good os : forall d : dict, Forall good_other os ->
  extend_loop (Some d) os = (Some (fold_left dcopy (maps os) d), Ok tt).
Proof.
  induction os as [|o os IH]; intros d H; [reflexivity|]. inversion H as [|? ? [->|(m & -> & Hn)] Hr]; subst.
  - cbn. apply IH, Hr.
  - cbn. rewrite copy_into_some. apply IH, Hr.
Qed.
Lemma maps_nodup os : Forall good_other os -> Forall (fun m : dict => NoDup (keys m)) (maps os).
Proof.
  induction 1 as [|o os [->|(m & -> & Hn)] _ IH]; cbn; [constructor|exact IH|constructor; assumption].
Qed.

(** Later ones win. *)
Lemma dget_copies (ms : list dict) k : forall d, Forall (fun m => NoDup (keys m)) ms ->
  (forall ms1 m ms2 v, ms = ms1 ++ m :: ms2 -> dget k m = Some v -> Forall (fun m => dget k m = None) ms2 ->
     dget k (fold_left dcopy ms d) = Some v) /\
  (Forall (fun m => dget k m = None) ms -> dget k (fold_left dcopy ms d) = dget k d).
Proof.
  induction ms as [|m0 ms IH]; intros d H.
  - split; [|reflexivity]. intros [|? ?] ? ? ? E; discriminate.
  - inversion H; subst. cbn [fold_left]. destruct (IH (dcopy d m0)) as (IH1 & IH2); [assumption|]. split.
    + intros [|m1 ms1] m ms2 v E Hv Hn; injection E as -> ->.
      * rewrite IH2 by assumption. rewrite dget_copy, Hv by assumption. reflexivity.
      * eapply IH1; eauto.
    + intros Hn. inversion Hn; subst. rewrite IH2 by assumption. rewrite dget_copy by assumption.
      match goal with E : dget k m0 = None |- _ => rewrite E end. reflexivity.
Qed.
Lemma keys_copies (ms : list dict) : forall d, exists new, keys (fold_left dcopy ms d) = keys d ++ new /\
  (forall k, In k new <-> (exists m, In m ms /\ In k (keys m)) /\ ~ In k (keys d)) /\ NoDup new.
Proof.
  induction ms as [|m ms IH]; intros d.
  - exists []. rewrite app_nil_r. split; [reflexivity|]. split; [|constructor]. cbn. intros k. split; [tauto|].
    intros ((m & [] & _) & _).
  - cbn [fold_left]. destruct (keys_copy m d) as (n1 & E1 & I1 & N1), (IH (dcopy d m)) as (n2 & E2 & I2 & N2).
    exists (n1 ++ n2). rewrite E2, E1, app_assoc. split; [reflexivity|]. split.
    + intros k. rewrite in_app_iff, I1, I2, E1, in_app_iff, I1. cbn. split.
      * intros [(Hm & Hd)|((m' & Hm & Hk) & Hd)].
        -- split; [|exact Hd]. exists m. auto.
        -- split; [|tauto]. exists m'. auto.
      * intros ((m' & [<-|Hm] & Hk) & Hd); [left; auto|].
        destruct (in_dec string_dec k (keys m)) as [H|H]; [left; auto|]. right. split; [exists m'; auto|tauto].
    + clear -N1 N2 I1 I2 E1. induction n1 as [|a n1 IHn]; [exact N2|]. cbn. inversion N1; subst. constructor.
      * rewrite in_app_iff. intros [H|H]; [contradiction|]. apply I2 in H. rewrite E1, in_app_iff in H. cbn in H. tauto.
      * assert (G : NoDup (n1 ++ n2)).
        { clear IHn. assert (D : forall k, In k n1 -> ~ In k n2).
          { intros k Hk Hk2. apply I2 in Hk2. rewrite E1, in_app_iff in Hk2. cbn in Hk2. tauto. }
          clear -H2 N2 D. induction n1 as [|b n1 IH]; [exact N2|]. inversion H2; subst. cbn. constructor.
          - rewrite in_app_iff. intros [H|H]; [contradiction|]. exact (D b (or_introl eq_refl) H).
          - apply IH; [assumption|]. intros k Hk. apply D. right; exact Hk. }
        exact G.
Qed.

Definition or_empty (p : option dict) : dict := match p with None => [] | Some d => d end.
Theorem extend_copies (p : option dict) os ip : Forall good_other (flatten (IIter os)) -> (ip = true -> p <> None) ->
  exists d, extend p os ip = (if ip then Some d else p, Ok (Some d)) /\
    (forall k ms1 m ms2 v, maps (flatten (IIter os)) = ms1 ++ m :: ms2 -> dget k m = Some v ->
       Forall (fun m => dget k m = None) ms2 -> dget k d = Some v) /\
    (forall k, Forall (fun m => dget k m = None) (maps (flatten (IIter os))) -> dget k d = dget k (or_empty p)) /\
    exists new, keys d = keys (or_empty p) ++ new /\ NoDup new /\
      (forall k, In k new <-> (exists m, In m (maps (flatten (IIter os))) /\ In k (keys m)) /\ ~ In k (keys (or_empty p))).
Proof.
  intros G Hp. exists (fold_left dcopy (maps (flatten (IIter os))) (or_empty p)). split; [|split; [|split]].
  - unfold extend. replace (if ip then p else Some match p with Some d => d | None => [] end) with (Some (or_empty p)).
    + rewrite extend_loop_good by exact G. destruct ip; reflexivity.
    + destruct ip; [|destruct p; reflexivity]. destruct p; [reflexivity|]. destruct (Hp eq_refl eq_refl).
  - intros k. apply (proj1 (dget_copies _ k (or_empty p) (maps_nodup _ G))).
  - intros k. apply (proj2 (dget_copies _ k (or_empty p) (maps_nodup _ G))).
  - destruct (keys_copies (maps (flatten (IIter os))) (or_empty p)) as (new & E & HI & Hn). exists new. auto.
Qed.
Lemma extend_untouched (p : option dict) os : fst (extend p os false) = p.
Proof. unfold extend. destruct (extend_loop _ _). reflexivity. Qed.
Lemma extend_nested (p : option dict) os ip : extend p [IIter os] ip = extend p os ip.
Proof. unfold extend. rewrite flatten_cons, flatten_nil, app_nil_r. reflexivity. Qed.
(** Anything but a mapping, None or an iterable of them raises; what came
    before it has been copied. *)
Theorem extend_raises (d : dict) os l1 x l2 ip : flatten (IIter os) = l1 ++ x :: l2 -> Forall good_other l1 ->
  x <> INone -> (forall m, x <> IMap m) ->
  extend (Some d) os ip = (Some (if ip then fold_left dcopy (maps l1) d else d), Err EAttr).
Proof.
  intros E G Hn Hm. unfold extend. rewrite E.
  replace (extend_loop (if ip then Some d else Some d) (l1 ++ x :: l2)) with (Some (fold_left dcopy (maps l1) d), @Err unit EAttr).
  - destruct ip; reflexivity.
  - replace (if ip then Some d else Some d) with (Some d) by (destruct ip; reflexivity).
    assert (L : leaf x).
    { pose proof (flatten_leaves (IIter os)) as H. rewrite E, Forall_app in H. destruct H as (_ & H). inversion H; assumption. }
    clear E. revert d. induction G as [|o l1 [->|(m & -> & _)] _ IH]; intros d.
    + cbn. destruct x; try reflexivity; [destruct (Hn eq_refl)|destruct (Hm m eq_refl)].
    + cbn. apply IH.
    + cbn. rewrite copy_into_some. apply IH.
Qed.
(** With no primary to write into, the first key raises. *)
Theorem extend_none os k v m l1 l2 : flatten (IIter os) = l1 ++ IMap ((k, v) :: m) :: l2 -> Forall (fun x => x = INone \/ x = IMap []) l1 ->
  extend (A := A) None os true = (None, Err EType).
Proof.
  intros E G. unfold extend. rewrite E. clear E.
  replace (extend_loop None (l1 ++ IMap ((k, v) :: m) :: l2)) with (@None dict, @Err unit EType); [reflexivity|].
  induction G as [|o l1 [-> | ->] _ IH]; cbn; [reflexivity|exact IH|exact IH].
Qed.
End Dicts.
