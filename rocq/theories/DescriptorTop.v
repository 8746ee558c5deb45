(** What parse_descriptor answers: literals, decorators, chains of functions. *)
From Coq Require Import List String Ascii Bool Arith Lia.
From Verif Require Import Base Util UtilFacts Descriptor DescriptorFacts.
Import ListNotations.
Open Scope list_scope.

Lemma asks_in o s : asks o s = true <-> In o s.
Proof.
  unfold asks. rewrite existsb_exists. split.
  - intros (x & H & E). apply String.eqb_eq in E. subst. exact H.
  - intros H. exists o. split; [exact H|apply String.eqb_refl].
Qed.
Lemma asks_not o s : asks o s = false <-> ~ In o s.
Proof. rewrite <- asks_in. destruct (asks o s); split; congruence. Qed.

Section Top.
Context {R C X : Type} (w : world R C X).
Notation pv := (pv R C X).
Notation pd := (parse_descriptor w).

(** What the decorators in force make of a literal. *)
Inductive conversion (s : list string) : pv -> pv -> Prop :=
| cv_date v r : In "date"%string s -> w_date w v = Ok r -> conversion s v (PNum r)
| cv_log r r' : ~ In "date"%string s -> In "log"%string s -> w_ln w r = Ok r' -> conversion s (PNum r) (PNum r')
| cv_log2 r r' : ~ In "date"%string s -> ~ In "log"%string s -> In "log2"%string s -> w_log2 w r = Ok r' ->
    conversion s (PNum r) (PNum r')
| cv_log10 r r' : ~ In "date"%string s -> ~ In "log"%string s -> ~ In "log2"%string s -> In "log10"%string s ->
    w_log10 w r = Ok r' -> conversion s (PNum r) (PNum r')
| cv_number r : ~ In "date"%string s -> ~ In "log"%string s -> ~ In "log2"%string s -> ~ In "log10"%string s ->
    conversion s (PNum r) (PNum r)
| cv_other v : ~ In "date"%string s -> (forall r, v <> PNum r) -> conversion s v v.

Lemma literal_conversion s v v' : literal w s v = Ok v' <-> conversion s v v'.
Proof.
  unfold literal. destruct (asks "date" s) eqn:D.
  - pose proof D as D'. rewrite asks_in in D'. split.
    + destruct (w_date w v) eqn:E; [|discriminate]. intros H. injection H as <-. apply cv_date; assumption.
    + intros H. inversion H; subst; try contradiction. rewrite H1. reflexivity.
  - pose proof D as D'. rewrite asks_not in D'. destruct v as [r|st|x|c|l|d];
      try (split; [intros H; injection H as <-; apply cv_other; [exact D'|discriminate]|
                   intros H; inversion H; subst; try contradiction; reflexivity]).
    destruct (asks "log" s) eqn:L.
    { pose proof L as L'. rewrite asks_in in L'. split.
      - destruct (w_ln w r) eqn:E; [|discriminate]. intros H. injection H as <-. apply cv_log; assumption.
      - intros H; inversion H as [| | | | |? ? Hq]; subst; try contradiction; [|destruct (Hq r eq_refl)].
        match goal with E : _ = Ok _ |- _ => rewrite E end. reflexivity. }
    pose proof L as L'. rewrite asks_not in L'. destruct (asks "log2" s) eqn:L2.
    { pose proof L2 as L2'. rewrite asks_in in L2'. split.
      - destruct (w_log2 w r) eqn:E; [|discriminate]. intros H. injection H as <-. apply cv_log2; assumption.
      - intros H; inversion H as [| | | | |? ? Hq]; subst; try contradiction; [|destruct (Hq r eq_refl)].
        match goal with E : _ = Ok _ |- _ => rewrite E end. reflexivity. }
    pose proof L2 as L2'. rewrite asks_not in L2'. destruct (asks "log10" s) eqn:L10.
    { pose proof L10 as L10'. rewrite asks_in in L10'. split.
      - destruct (w_log10 w r) eqn:E; [|discriminate]. intros H. injection H as <-. apply cv_log10; assumption.
      - intros H; inversion H as [| | | | |? ? Hq]; subst; try contradiction; [|destruct (Hq r eq_refl)].
        match goal with E : _ = Ok _ |- _ => rewrite E end. reflexivity. }
    pose proof L10 as L10'. rewrite asks_not in L10'. split.
    + intros H. injection H as <-. apply cv_number; assumption.
    + intros H; inversion H as [| | | | |? ? Hq]; subst; try contradiction; [reflexivity|destruct (Hq r eq_refl)].
Qed.

(** Data: no key that starts with @ or $. *)
Definition atomic (v : pv) : Prop := match v with PList _ | PDict _ => False | _ => True end.
Inductive data : pv -> Prop :=
| data_leaf v : atomic v -> data v
| data_list l : Forall data l -> data (PList l)
| data_dict d : NoDup (keys d) -> Forall (fun kv => starts "@" (fst kv) = false /\ starts "$" (fst kv) = false /\ data (snd kv)) d ->
    data (PDict d).
(** The same tree, with the literals in sequences converted and those that
    are the value of a key left as they are. *)
Inductive converted (s : list string) : pv -> pv -> Prop :=
| cd_leaf v v' : atomic v -> conversion s v v' -> converted s v v'
| cd_list l l' : Forall2 (converted s) l l' -> converted s (PList l) (PList l')
| cd_dict d d' : Forall2 (fun a b => fst a = fst b /\ (atomic (snd a) /\ snd b = snd a \/ ~ atomic (snd a) /\ converted s (snd a) (snd b))) d d' ->
    converted s (PDict d) (PDict d').

Lemma mapM_spec (f : pv -> M pv) (Q : pv -> pv -> Prop) s l :
  (forall v, In v l -> forall s' v', f v s = (s', Ok v') <-> s' = s /\ Q v v') ->
  forall s' l', mapM f l s = (s', Ok l') <-> s' = s /\ Forall2 Q l l'.
Proof.
  induction l as [|v l IH]; intros H s' l'.
  - cbn. split.
    + intros E. injection E as <- <-. auto.
    + intros (-> & F). inversion F. reflexivity.
  - cbn [mapM]. split.
    + intros E. apply bind_ok in E. destruct E as (s1 & y & E1 & E). apply bind_ok in E. destruct E as (s2 & ys & E2 & E).
      injection E as <- <-. apply H in E1; [|left; reflexivity]. destruct E1 as (-> & Q1).
      apply IH in E2; [|intros; apply H; right; assumption]. destruct E2 as (-> & Q2). auto.
    + intros (-> & F). inversion F as [|? y ? ys Q1 Q2]; subst. unfold bind.
      rewrite (proj2 (H v (or_introl eq_refl) s y) (conj eq_refl Q1)).
      rewrite (proj2 (IH (fun u Hu => H u (or_intror Hu)) s ys) (conj eq_refl Q2)). reflexivity.
Qed.
Lemma dset_new {A} (d : dict A) k v : ~ In k (keys d) -> dset d k v = d ++ [(k, v)].
Proof.
  unfold keys. induction d as [|[a b] d IH]; intros H; [reflexivity|]. cbn in *. destruct (String.eqb_spec k a) as [->|N]; [tauto|].
  rewrite IH by tauto. reflexivity.
Qed.
Lemma plain_key_spec rec s (Q : pv -> pv -> Prop) v : (~ atomic v -> forall s' v', rec true None v s = (s', Ok v') <-> s' = s /\ Q v v') ->
  forall s' v', plain_key rec v s = (s', Ok v') <-> s' = s /\ (atomic v /\ v' = v \/ ~ atomic v /\ Q v v').
Proof.
  intros H s' v'. destruct v as [r|st|x|c|l|d]; cbn [plain_key atomic] in *;
    try (unfold ret; split; [intros E; injection E as <- <-; auto|intros (-> & [(_ & ->)|(F & _)]); [reflexivity|tauto]]).
  - rewrite (H (fun f => f)). tauto.
  - rewrite (H (fun f => f)). tauto.
Qed.
Lemma loop_data rec s (Q : pv -> pv -> Prop) n fr : forall items vals,
  (forall kv, In kv items -> starts "@" (fst kv) = false /\ starts "$" (fst kv) = false /\
     (~ atomic (snd kv) -> forall s' v', rec true None (snd kv) s = (s', Ok v') <-> s' = s /\ Q (snd kv) v')) ->
  NoDup (keys vals ++ keys items) ->
  forall s' v, items_loop w rec n fr items None vals s = (s', Ok v) <-> s' = s /\
    exists d', v = PDict (vals ++ d') /\
      Forall2 (fun a b => fst a = fst b /\ (atomic (snd a) /\ snd b = snd a \/ ~ atomic (snd a) /\ Q (snd a) (snd b))) items d'.
Proof.
  induction items as [|[k u] items IH]; intros vals H Hn s' v.
  - cbn. unfold ret. split.
    + intros E. injection E as <- <-. split; [reflexivity|]. exists []. rewrite app_nil_r. auto.
    + intros (-> & d' & -> & F). inversion F; subst. rewrite app_nil_r. reflexivity.
  - destruct (H (k, u) (or_introl eq_refl)) as (H1 & H2 & H3). cbn [fst snd] in *. cbn [items_loop]. rewrite H1, H2.
    assert (Nk : ~ In k (keys vals)).
    { intros I. apply (NoDup_remove_2 _ _ _ Hn), in_or_app. auto. }
    assert (Hn' : forall x, NoDup (keys (vals ++ [(k, x)]) ++ keys items)).
    { intros x. unfold keys in *. rewrite map_app, <- app_assoc. exact Hn. }
    assert (H' : forall kv, In kv items -> starts "@" (fst kv) = false /\ starts "$" (fst kv) = false /\
     (~ atomic (snd kv) -> forall s' v', rec true None (snd kv) s = (s', Ok v') <-> s' = s /\ Q (snd kv) v')).
    { intros kv Hk. apply H. right; exact Hk. }
    split.
    + intros E. apply bind_ok in E. destruct E as (s1 & x & E1 & E).
      apply (plain_key_spec rec s Q u H3) in E1. destruct E1 as (-> & Q1).
      rewrite dset_new in E by exact Nk. apply IH in E; [|exact H'|apply Hn'].
      destruct E as (-> & d' & -> & F). split; [reflexivity|]. exists ((k, x) :: d'). split; [rewrite <- app_assoc; reflexivity|].
      constructor; [split; [reflexivity|exact Q1]|exact F].
    + intros (-> & d0 & -> & F). inversion F as [|? [k' x] ? d' (K & Q1) F']; subst. cbn [fst snd] in *. subst k'. unfold bind.
      rewrite (proj2 (plain_key_spec rec s Q u H3 s x) (conj eq_refl Q1)).
      rewrite dset_new by exact Nk. apply IH; [exact H'|apply Hn'|]. split; [reflexivity|].
      exists d'. split; [rewrite <- app_assoc; reflexivity|exact F'].
Qed.
Lemma converted_list s l v : converted s (PList l) v <-> exists l', v = PList l' /\ Forall2 (converted s) l l'.
Proof. split; [intros H; inversion H; subst; [contradiction|eauto]|intros (l' & -> & F); constructor; exact F]. Qed.
Theorem data_converted : forall fuel d s s' v, data d -> depth d < fuel ->
  (pd fuel true None d s = (s', Ok v) <-> s' = s /\ converted s d v).
Proof.
  induction fuel as [|fuel IH]; intros d s s' v Hd Hf; [lia|]. cbn [parse_descriptor].
  destruct d as [r|st|x|c|l|d];
    try (rewrite pair_equal_spec, literal_conversion; split;
         [intros (-> & H); split; [reflexivity|constructor; [exact Logic.I|exact H]]
         |intros (-> & H); split; [reflexivity|inversion H; assumption]]).
  - inversion Hd as [? Ha|? Fl|]; subst; [destruct Ha|].
    assert (Dl : Forall (fun v => depth v < fuel) l).
    { destruct fuel; [cbn in Hf; lia|]. assert (Hf' : depth (PList l) <= S fuel) by lia. apply depth_list in Hf'.
      eapply Forall_impl; [|exact Hf']. cbn; intros; lia. }
    rewrite Forall_forall in Fl, Dl.
    assert (Sp : forall v, In v l -> forall s' v', pd fuel true None v s = (s', Ok v') <-> s' = s /\ converted s v v').
    { intros u Hu s1 u'. apply IH; auto. }
    rewrite converted_list. split.
    + intros E. apply bind_ok in E. destruct E as (s1 & l' & E1 & E). injection E as <- <-.
      apply (mapM_spec _ _ _ _ Sp) in E1. destruct E1 as (-> & F). eauto.
    + intros (-> & l' & -> & F). unfold bind. rewrite (proj2 (mapM_spec _ _ _ _ Sp s l') (conj eq_refl F)). reflexivity.
  - inversion Hd as [? Ha| |? Nd Fd]; subst; [destruct Ha|].
    assert (Dl : Forall (fun kv => depth (snd kv) < fuel) d).
    { destruct fuel; [cbn in Hf; lia|]. assert (Hf' : depth (PDict d) <= S fuel) by lia. apply depth_dict in Hf'.
      eapply Forall_impl; [|exact Hf']. cbn; intros; lia. }
    rewrite Forall_forall in Fd, Dl.
    rewrite (loop_data _ s (converted s)); [| |exact Nd].
    + split.
      * intros (-> & d' & -> & F). split; [reflexivity|]. apply cd_dict. exact F.
      * intros (-> & H). split; [reflexivity|]. inversion H as [? ? Ha| |? d' F]; subst; [destruct Ha|]. exists d'. auto.
    + intros kv Hk. destruct (Fd kv Hk) as (? & ? & ?). split; [assumption|split; [assumption|]]. intros _ s1 u. apply IH; auto.
Qed.

(** ** Decorators *)
Definition at_ (o : string) : string := String "@" o.
Lemma starts_at o : starts "@" (at_ o) = true.
Proof. destruct o; reflexivity. Qed.
Theorem decorated fuel fr cur o (v v' : pv) s : pd fuel fr cur v (s ++ [o]) = (s ++ [o], Ok v') ->
  starts "log" o = false -> o <> "args"%string \/ (exists c, v' = PCurve c) ->
  pd (S fuel) fr cur (PDict [(at_ o, v)]) s = (s, Ok v').
Proof.
  intros E L H. cbn [parse_descriptor List.length items_loop]. rewrite starts_at. unfold bind at 1.
  unfold decorator_key. change (drop 1 (at_ o)) with o. unfold bind. rewrite E. cbv zeta. rewrite L, del_last.
  destruct v'; try reflexivity; destruct H as [H|(c' & H)]; try discriminate;
    destruct (String.eqb_spec o "args"); try contradiction; reflexivity.
Qed.
Theorem decorated_log fuel fr cur o b (v : pv) s : starts "log" o = true -> base_of w o = Ok b ->
  (forall r r', pd fuel fr cur v (s ++ [o]) = (s ++ [o], Ok (PNum r)) -> w_pow w b r = Ok r' ->
     pd (S fuel) fr cur (PDict [(at_ o, v)]) s = (s, Ok (PNum r'))) /\
  (forall c c', pd fuel fr cur v (s ++ [o]) = (s ++ [o], Ok (PCurve c)) -> w_rpow w b c = Ok c' ->
     pd (S fuel) fr cur (PDict [(at_ o, v)]) s = (s, Ok (PCurve c'))).
Proof.
  intros L B. split; intros r r' E P; cbn [parse_descriptor List.length items_loop]; rewrite starts_at; unfold bind at 1;
    unfold decorator_key; change (drop 1 (at_ o)) with o; unfold bind; rewrite E; cbv zeta; rewrite L, B, del_last; cbn [rbind raise_to];
    rewrite P; cbn [rbind]; [|reflexivity].
  destruct (String.eqb_spec o "args") as [->|]; [discriminate|]. reflexivity.
Qed.
Theorem decorator_siblings fuel fr cur o (v v' : pv) s rest : pd fuel fr cur v (s ++ [o]) = (s ++ [o], Ok v') ->
  starts "log" o = false -> o <> "args"%string -> (forall c, v' <> PCurve c) -> rest <> [] ->
  pd (S fuel) fr cur (PDict ((at_ o, v) :: rest)) s = (s, Err EValue).
Proof.
  intros E L H Hc Hr. cbn [parse_descriptor List.length items_loop]. rewrite starts_at. unfold bind at 1.
  unfold decorator_key. change (drop 1 (at_ o)) with o. unfold bind. rewrite E. cbv zeta. rewrite L, del_last.
  destruct rest as [|p rest]; [congruence|]. cbn [List.length].
  destruct v'; try (destruct (Hc c eq_refl)); destruct (String.eqb_spec o "args"); try contradiction; reflexivity.
Qed.

(** ** Chains of functions *)
Definition call (f : string) : string := String "$" f.
Definition calls (l : list (string * pv)) : list (string * pv) := map (fun fv => (call (fst fv), snd fv)) l.
Lemma call_at f : starts "@" (call f) = false.
Proof. reflexivity. Qed.
Lemma call_call f : starts "$" (call f) = true.
Proof. destruct f; reflexivity. Qed.
Lemma loop_curve rec n m fr l c vals vals' s : items_loop w rec n fr (calls l) (Some c) vals s = items_loop w rec m fr (calls l) (Some c) vals' s.
Proof.
  revert c s. induction l as [|[f v] l IH]; intros c s; [reflexivity|]. cbn [calls map items_loop fst snd].
  rewrite call_at, call_call.
  apply bind_ext; [reflexivity|]. intros s1 c' _. apply IH.
Qed.
Theorem chain fuel fr cur l1 l2 s : l1 <> [] ->
  pd (S fuel) fr cur (PDict (calls (l1 ++ l2))) s =
  match pd (S fuel) fr cur (PDict (calls l1)) s with
  | (s', Ok (PCurve c)) => pd (S fuel) fr (Some c) (PDict (calls l2)) s'
  | r => r
  end.
Proof.
  intros N. cbn [parse_descriptor]. unfold calls at 1 2. rewrite map_app. fold (calls l1) (calls l2). rewrite app_length.
  generalize (List.length (calls l1) + List.length (calls l2)) as n. generalize (List.length (calls l1)) as n1.
  generalize (List.length (calls l2)) as n2. generalize (parse_descriptor w fuel) as rec.
  intros rec n2 n1 n. destruct l1 as [|[f v] l1]; [congruence|]. clear N.
  cbn [calls map app items_loop fst snd]. fold (calls l1).
  rewrite call_at, call_call.
  unfold bind at 1 2. destruct (function_key w rec (call f) v cur s) as [s1 [c|e]]; [|reflexivity].
  clear cur f v. revert s1 c. induction l1 as [|[f v] l1 IH]; intros s1 c.
  - cbn [calls map app items_loop]. unfold ret. apply loop_curve.
  - cbn [calls map app items_loop fst snd]. fold (calls l1).
    rewrite call_at, call_call.
    unfold bind. destruct (function_key w rec (call f) v (Some c) s1) as [s2 [c2|e]]; [apply IH|reflexivity].
Qed.
Theorem chain_curve fuel fr cur l s s' v : l <> [] -> pd fuel fr cur (PDict (calls l)) s = (s', Ok v) -> exists c, v = PCurve c.
Proof.
  intros N E. destruct fuel as [|fuel]; [discriminate|]. cbn [parse_descriptor] in E. revert E.
  generalize (List.length (calls l)) as n. generalize (@nil (string * pv)) as vals. intros vals n E.
  assert (G : forall l c s, items_loop w (parse_descriptor w fuel) n fr (calls l) (Some c) vals s = (s', Ok v) -> exists c, v = PCurve c).
  { clear l s N E. induction l as [|[f u] l IH]; intros c s E; cbn [calls map items_loop fst snd] in E.
    - injection E as <- <-. eauto.
    - rewrite call_at, call_call in E.
      apply bind_ok in E. destruct E as (s1 & c1 & _ & E). eapply IH, E. }
  destruct l as [|[f u] l]; [congruence|]. cbn [calls map items_loop fst snd] in E.
  rewrite call_at, call_call in E.
  apply bind_ok in E. destruct E as (s1 & c1 & _ & E). eapply G, E.
Qed.

(** One link.  [names f]: f is none of the names with a meaning of their own. *)
Definition ordinary (f : string) : Prop := f <> "const"%string /\ f <> "constant"%string /\ f <> "line"%string /\ starts "log" f = false.
Lemma ordinary_constructor cur f : ordinary f -> constructor w cur f = next_func_constructor w cur f.
Proof.
  intros (A & B & D & E). unfold constructor.
  destruct (String.eqb_spec f "const"); [contradiction|]. destruct (String.eqb_spec f "constant"); [contradiction|].
  destruct (String.eqb_spec f "line"); [contradiction|]. rewrite E. reflexivity.
Qed.
Lemma link fuel fr cur f (v : pv) s : pd (S fuel) fr cur (PDict (calls [(f, v)])) s =
  bind (function_key w (pd fuel) (call f) v cur) (fun c => ret (PCurve c)) s.
Proof. cbn [parse_descriptor calls map List.length items_loop fst snd]. rewrite call_at, call_call. reflexivity. Qed.
(** A class method (the one ending in _many first) gets the current function
    as its first argument, or as the first of the list that is its first. *)
Theorem class_link fuel fr c f (v : pv) args s : ordinary f -> pd fuel true None v s = (s, Ok (PList args)) ->
  let many := (f ++ "_many")%string in
  let name := if w_type_method w c many then many else f in w_type_method w c name = true ->
  pd (S fuel) fr (Some c) (PDict (calls [(f, v)])) s = (s,
    let! c' := w_call_type w c name (match args with PList l :: r => PList (PCurve c :: l) :: r | _ => PCurve c :: args end) [] in Ok (PCurve c')).
Proof.
  intros O E many name Hn. rewrite link. unfold function_key, bind, lift. change (drop 1 (call f)) with f.
  rewrite ordinary_constructor by exact O. unfold next_func_constructor, or_obj. fold many. fold name. rewrite Hn, E.
  cbn [split_args dget from_instance construct or_obj rbind]. unfold prepend.
  match goal with |- context [w_call_type w c name ?a []] => destruct (w_call_type w c name a []) end; reflexivity.
Qed.
(** A method is called on the current function. *)
Theorem method_link fuel fr c f (v : pv) args s : ordinary f -> pd fuel true None v s = (s, Ok (PList args)) ->
  w_type_method w c (f ++ "_many") = false -> w_type_method w c f = false -> w_method w c f = true ->
  pd (S fuel) fr (Some c) (PDict (calls [(f, v)])) s = (s, let! c' := w_call w c f args [] in Ok (PCurve c')).
Proof.
  intros O E H1 H2 H3. rewrite link. unfold function_key, bind, lift. change (drop 1 (call f)) with f.
  rewrite ordinary_constructor by exact O. unfold next_func_constructor, or_obj. rewrite H1, H2, H3, E.
  cbn [split_args dget from_instance construct or_obj rbind]. destruct (w_call w c f args []); reflexivity.
Qed.
(** Without a current function the first argument takes its place. *)
Theorem first_link fuel fr f (v : pv) c args s : ordinary f -> pd fuel true None v s = (s, Ok (PList (PCurve c :: args))) ->
  w_type_method w (w_obj w) (f ++ "_many") = false -> w_type_method w (w_obj w) f = false -> w_method w (w_obj w) f = true ->
  pd (S fuel) fr None (PDict (calls [(f, v)])) s = (s, let! c' := w_call w c f args [] in Ok (PCurve c')).
Proof.
  intros O E H1 H2 H3. rewrite link. unfold function_key, bind, lift. change (drop 1 (call f)) with f.
  rewrite ordinary_constructor by exact O. unfold next_func_constructor, or_obj. rewrite H1, H2, H3, E.
  cbn [split_args dget from_instance construct or_obj rbind parse]. destruct (w_call w c f args []); reflexivity.
Qed.
(** The logarithm is taken of the current function, to the base in its name
    unless a base is given. *)
Theorem log_link fuel fr c f b (v : pv) kw s : starts "log" f = true -> base_of w f = Ok b ->
  pd fuel true None v s = (s, Ok (PDict kw)) -> ~ In "@args"%string (keys kw) -> NoDup (keys kw) ->
  exists kw', (forall k, dget k kw' = match dget k kw with Some x => Some x | None => if String.eqb k "base" then Some (PNum b) else None end) /\
  pd (S fuel) fr (Some c) (PDict (calls [(f, v)])) s = (s, let! c' := w_log w c kw' in Ok (PCurve c')).
Proof.
  intros L B E Na Nd. exists (dcopy [("base"%string, PNum b)] kw). split.
  - intros k. rewrite dget_copy by exact Nd. destruct (dget k kw); [reflexivity|]. cbn. reflexivity.
  - rewrite link. unfold function_key, bind, lift. change (drop 1 (call f)) with f. unfold constructor.
    destruct (String.eqb_spec f "const") as [->|_]; [discriminate|]. destruct (String.eqb_spec f "constant") as [->|_]; [discriminate|].
    destruct (String.eqb_spec f "line") as [->|_]; [discriminate|]. cbn [orb]. rewrite L, B, E. cbn [rbind].
    unfold split_args. destruct (dget "@args" kw) eqn:D; [exfalso; apply Na, dget_in; congruence|].
    cbn [from_instance construct]. unfold extend. cbn [flatten flatten_ is_none is_str is_map is_iterable orb negb andb app].
    cbn [extend_loop]. rewrite copy_into_some. cbn [extend_loop rbind snd].
    destruct (w_log w c (dcopy [("base"%string, PNum b)] kw)); reflexivity.
Qed.

(** ** What it does with some literals *)
(** A literal that is the value of a key is never converted. *)
Theorem key_literal fuel fr (v : pv) k s : atomic v -> starts "@" k = false -> starts "$" k = false ->
  pd (S fuel) fr None (PDict [(k, v)]) s = (s, Ok (PDict [(k, v)])).
Proof. intros A H1 H2. cbn [parse_descriptor List.length items_loop]. rewrite H1, H2. destruct v; try contradiction; reflexivity. Qed.
(** One in "@args" is converted twice. *)
Theorem args_twice fuel r r1 r2 s : ~ In "date"%string s -> In "log"%string s -> w_ln w r = Ok r1 -> w_ln w r1 = Ok r2 ->
  pd (S (S (S fuel))) true None (PDict [("@args"%string, PList [PNum r])]) s = (s, Ok (PDict [("@args"%string, PList [PNum r2])])).
Proof.
  intros D L E1 E2.
  assert (C1 : forall s' a b, ~ In "date"%string s' -> In "log"%string s' -> w_ln w a = Ok b -> literal w s' (PNum a) = Ok (PNum b)).
  { intros s' a b D' L' E. apply literal_conversion, cv_log; assumption. }
  cbn [parse_descriptor List.length items_loop]. change (starts "@" "@args") with true. cbv iota.
  unfold bind at 1. unfold decorator_key, bind. cbn [drop mapM]. unfold bind, ret, lift.
  rewrite (C1 (s ++ ["args"%string]) r r1); [| |apply in_or_app; auto|exact E1].
  2: { rewrite in_app_iff. cbn. intros [H|[H|[]]]; [auto|discriminate]. }
  cbv zeta. cbn [starts String.prefix]. rewrite del_last. cbn [String.eqb Ascii.eqb eqb negb plain_key mapM parse_descriptor].
  unfold bind, ret, lift. cbn. unfold bind, ret, lift. rewrite (C1 s r1 r2 D L E2). reflexivity.
Qed.
(** Under a logarithm to another base, it is not converted on the way in but
    raised on the way out. *)
Theorem other_base fuel o b r r' s : starts "log" o = true -> o <> "log"%string -> o <> "log2"%string -> o <> "log10"%string ->
  ~ In "date"%string s -> ~ In "log"%string s -> ~ In "log2"%string s -> ~ In "log10"%string s ->
  base_of w o = Ok b -> w_pow w b r = Ok r' ->
  pd (S (S fuel)) true None (PDict [(at_ o, PNum r)]) s = (s, Ok (PNum r')).
Proof.
  intros L A1 A2 A3 D1 D2 D3 D4 B P. eapply (decorated_log (S fuel) true None o b); [exact L|exact B| |exact P].
  cbn [parse_descriptor]. f_equal. apply literal_conversion, cv_number; rewrite in_app_iff; cbn; intros [H|[H|[]]]; subst; auto.
  discriminate.
Qed.
(** Two logarithms around a literal take only one of it. *)
Theorem nested_logs fuel b r r1 r2 r3 : w_ln w r = Ok r1 -> w_pow w (w_e w) r1 = Ok r2 -> w_int w "10" = Ok b -> w_pow w b r2 = Ok r3 ->
  pd (S (S (S fuel))) true None (PDict [(at_ "log10", PDict [(at_ "log", PNum r)])]) [] = ([], Ok (PNum r3)).
Proof.
  intros E1 E2 B E3. apply (proj1 (decorated_log (S (S fuel)) true None "log10" b (PDict [(at_ "log", PNum r)]) [] eq_refl B) r2); [|exact E3].
  apply (proj1 (decorated_log (S fuel) true None "log" (w_e w) (PNum r) (["log10"%string]) eq_refl eq_refl) r1); [|exact E2].
  cbn [parse_descriptor]. f_equal. apply literal_conversion, cv_log; [intros [H|[H|[]]]; discriminate|cbn; auto|exact E1].
Qed.
(** What goes in by a logarithm comes out by the power. *)
Theorem log_round_trip fuel r r1 s : ~ In "date"%string s -> w_ln w r = Ok r1 -> w_pow w (w_e w) r1 = Ok r ->
  pd (S (S fuel)) true None (PDict [(at_ "log", PNum r)]) s = (s, Ok (PNum r)).
Proof.
  intros D E1 E2. apply (proj1 (decorated_log (S fuel) true None "log" (w_e w) (PNum r) s eq_refl eq_refl) r1); [|exact E2].
  cbn [parse_descriptor]. f_equal. apply literal_conversion, cv_log; [|apply in_or_app; cbn; auto|exact E1].
  rewrite in_app_iff. cbn. intros [H|[H|[]]]; [auto|discriminate].
Qed.
(** A sequence cannot leave a logarithm. *)
Theorem log_of_list fuel o b (l l' : list pv) s : starts "log" o = true -> base_of w o = Ok b ->
  pd fuel true None (PList l) (s ++ [o]) = (s ++ [o], Ok (PList l')) ->
  pd (S fuel) true None (PDict [(at_ o, PList l)]) s = (s, Err EType).
Proof.
  intros L B E. cbn [parse_descriptor List.length items_loop]. rewrite starts_at. unfold bind at 1.
  unfold decorator_key. change (drop 1 (at_ o)) with o. unfold bind. rewrite E. cbv zeta. rewrite L, B, del_last. reflexivity.
Qed.
End Top.
