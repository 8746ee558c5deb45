(** Facts about adapted calls. *)
From Coq Require Import List Arith Bool Lia.
From Verif Require Import Base Callables.
Import ListNotations.

(** What inspect.signature guarantees: positional parameters first, then at most
    one *args, keyword-only ones, at most one **kwargs; among the positional
    ones those without a default come first. *)
Inductive tail_form : list param -> Prop :=
| tf_nil : tail_form []
| tf_varkw : forall d, tail_form [mkParam VarKw d]
| tf_kw : forall d ps, tail_form ps -> tail_form (mkParam KwOnly d :: ps).
Inductive rest_form : list param -> Prop :=
| rf_var : forall d ps, tail_form ps -> rest_form (mkParam VarPos d :: ps)
| rf_tail : forall ps, tail_form ps -> rest_form ps.
Inductive opt_form : list param -> Prop :=
| of_rest : forall ps, rest_form ps -> opt_form ps
| of_opt : forall p ps, positional p = true -> p_default p = true -> opt_form ps -> opt_form (p :: ps).
Inductive signature : list param -> Prop :=
| sg_opt : forall ps, opt_form ps -> signature ps
| sg_req : forall p ps, positional p = true -> p_default p = false -> signature ps -> signature (p :: ps).

Definition count (q : param -> bool) (ps : list param) : nat := length (filter q ps).
Definition required (p : param) : bool := positional p && negb (p_default p).
Definition kw_required (p : param) : bool := match p_kind p with KwOnly => negb (p_default p) | _ => false end.
Definition variadic (p : param) : bool := match p_kind p with VarPos => true | _ => false end.
(** How many positional arguments a function accepts. *)
Definition accepts (ps : list param) (n : nat) : Prop :=
  count required ps <= n /\ (n <= count positional ps \/ 0 < count variadic ps) /\ count kw_required ps = 0.
Definition binds {A} (r : res A) : Prop := exists v, r = Ok v.

Section Facts.
Context {A : Type}.
Implicit Types args : list A.

Lemma fold_count ps : forall k, fold_left (fun c p => if positional p then S c else c) ps k = k + count positional ps.
Proof.
  unfold count. induction ps as [|p ps IH]; intro k; cbn [fold_left filter]; [ cbn; lia | ].
  rewrite IH. destruct (positional p); cbn [length]; lia.
Qed.

Lemma tail_bind ps : tail_form ps -> forall args, binds (bind ps args) <-> (args = [] /\ count kw_required ps = 0).
Proof.
  induction 1 as [ | d | d ps H IH ]; intros args.
  - destruct args; cbn; (split; [ intros (v & E); try discriminate; split; reflexivity | intros (E & _); try discriminate; eexists; reflexivity ]).
  - destruct args; cbn; (split; [ intros (v & E); try discriminate; split; reflexivity | intros (E & _); try discriminate; eexists; reflexivity ]).
  - cbn [bind p_kind p_default]. unfold count in *. cbn [filter kw_required p_kind p_default]. destruct d; cbn [negb].
    + apply IH.
    + split; [ intros (v & E); discriminate | cbn; intros (_ & E); discriminate ].
Qed.
Lemma tail_counts ps : tail_form ps -> count positional ps = 0 /\ count required ps = 0 /\ count variadic ps = 0.
Proof. induction 1 as [ | d | d ps H IH ]; [ now cbn | now cbn | exact IH ]. Qed.

Lemma rest_bind ps : rest_form ps -> forall args, binds (bind ps args) <-> accepts ps (length args).
Proof.
  unfold accepts. destruct 1 as [ d ps H | ps H ]; intros args.
  - cbn [bind p_kind]. pose proof (tail_bind ps H []) as B. destruct (tail_counts ps H) as (P & R & V). unfold count in *. cbn [filter positional required variadic kw_required p_kind andb length].
    rewrite P, R, V. split.
    + intros (v & E). destruct (bind ps []) as [ w | ] eqn:Eb; [ | discriminate ]. destruct (proj1 B (ex_intro _ w eq_refl)) as (_ & K). lia.
    + intros (_ & _ & K). destruct (proj2 B (conj eq_refl K)) as ((ys & r) & E). rewrite E. eexists. reflexivity.
  - rewrite (tail_bind ps H args). destruct (tail_counts ps H) as (P & R & V). rewrite P, R, V. destruct args; cbn [length]; split.
    + intros (_ & K). lia. + intros (_ & _ & K). now split. + intros (E & _). discriminate. + intros (_ & E & _). lia.
Qed.
Lemma bind_pos p ps args : positional p = true ->
  bind (p :: ps) args = match args with
    | a :: args => let! (ys, r) := bind ps args in Ok (Some a :: ys, r)
    | [] => if p_default p then let! (ys, r) := bind ps [] in Ok (None :: ys, r) else Err EType end.
Proof. unfold positional. cbn [bind]. destruct (p_kind p); intros; congruence || reflexivity. Qed.
Lemma binds_let (m : res (list (option A) * list A)) (o : option A) :
  binds (let! (ys, r) := m in Ok (o :: ys, r)) <-> binds m.
Proof. destruct m as [ (ys & r) | e ]; cbn [rbind]; split; intros (v & E); try discriminate; eexists; reflexivity. Qed.

Lemma opt_bind ps : opt_form ps -> (forall args, binds (bind ps args) <-> accepts ps (length args)) /\ count required ps = 0.
Proof.
  induction 1 as [ ps H | p ps P D H (IH & R) ].
  - split; [ now apply rest_bind | ]. destruct H as [ d ps H | ps H ]; [ exact (proj1 (proj2 (tail_counts ps H))) | apply (tail_counts ps H) ].
  - assert (R' : count required (p :: ps) = 0).
    { unfold count in *. cbn [filter]. unfold required at 1. rewrite P, D. cbn [negb andb]. exact R. }
    split; [ | exact R' ]. intro args. rewrite bind_pos by exact P. unfold accepts. rewrite R'.
    assert (C : count positional (p :: ps) = S (count positional ps) /\ count variadic (p :: ps) = count variadic ps /\ count kw_required (p :: ps) = count kw_required ps).
    { unfold count. cbn [filter]. rewrite P. unfold positional in P. unfold variadic at 1, kw_required at 1. destruct (p_kind p); try discriminate; now repeat split. }
    destruct C as (-> & -> & ->).
    destruct args as [|a args]; [ rewrite D | ]; rewrite binds_let, IH; unfold accepts; rewrite R; cbn [length]; lia.
Qed.
(** Python's rule, as it is usually stated. *)
Lemma bind_iff ps : signature ps -> forall args, binds (bind ps args) <-> accepts ps (length args).
Proof.
  induction 1 as [ ps H | p ps P D H IH ]; [ apply (opt_bind ps H) | ]. intro args. rewrite bind_pos by exact P.
  assert (C : count positional (p :: ps) = S (count positional ps) /\ count required (p :: ps) = S (count required ps) /\
              count variadic (p :: ps) = count variadic ps /\ count kw_required (p :: ps) = count kw_required ps).
  { unfold count. cbn [filter]. unfold required at 1. rewrite P, D. unfold positional in P. unfold variadic at 1, kw_required at 1.
    destruct (p_kind p); try discriminate; now repeat split. }
  unfold accepts. destruct C as (-> & -> & -> & ->). destruct args as [|a args]; [ rewrite D | rewrite binds_let, IH; unfold accepts; cbn [length]; lia ].
  cbn [length]. split; [ intros (v & E); discriminate | lia ].
Qed.

(** ** Map and AccumulatorMap *)
Lemma count_plain ps d : count_positional_args (Plain ps) d = Ok (count positional ps).
Proof. unfold count_positional_args. now rewrite fold_count. Qed.
Lemma adapt_plain ps w : adapt (Plain ps) = Ok w <-> (count positional ps = 1 /\ w = false) \/ (count positional ps = 2 /\ w = true).
Proof.
  unfold adapt. rewrite count_plain. cbn [rbind]. generalize (count positional ps). intro n. destruct n as [|[|[|n]]]; cbn; split.
  - discriminate. - lia.
  - intro H. injection H as <-. now left. - intros [ (_ & ->) | (E & _) ]; [ reflexivity | discriminate ].
  - intro H. injection H as <-. now right. - intros [ (E & _) | (_ & ->) ]; [ discriminate | reflexivity ].
  - discriminate. - intros [ (E & _) | (E & _) ]; discriminate.
Qed.
Lemma adapt_raises f : (exists e, adapt f = Err e) <->
  match f with NotCallable | Opaque => True | Builtin _ => False | Plain ps => count positional ps = 0 \/ 2 < count positional ps end.
Proof.
  destruct f as [ | ps | ps | ].
  - cbn. split; [ easy | eauto ].
  - cbn. split; [ intros (e & E); discriminate | easy ].
  - unfold adapt. rewrite count_plain. cbn [rbind]. destruct (count positional ps) as [|[|[|n]]]; cbn; split; try lia; try (intros (e & E); discriminate); eauto.
  - cbn. split; [ easy | eauto ].
Qed.

(** The arguments arrive at the positional parameters in order. *)
Lemma bound_args : forall ps, signature ps -> forall args ys r, bind ps args = Ok (ys, r) ->
  length ys = count positional ps /\ forall k, k < count positional ps -> nth_error ys k = Some (nth_error args k).
Proof.
  assert (T : forall ps, tail_form ps -> forall args ys r, bind ps args = Ok (ys, r) -> ys = []).
  { induction 1 as [ | d | d ps H IH ]; intros args ys r E.
    - destruct args; [ now injection E | discriminate ].
    - cbn in E. destruct args; [ now injection E | discriminate ].
    - cbn in E. destruct d; [ now apply (IH args ys r) | discriminate ]. }
  assert (Q : forall ps, rest_form ps -> count positional ps = 0 /\ forall args ys r, bind ps args = Ok (ys, r) -> ys = []).
  { destruct 1 as [ d ps' H | ps' H ]; (split; [ apply (tail_counts ps' H) | ]); intros args ys r E.
    - cbn in E. destruct (bind ps' []) as [ (ys' & r') | ] eqn:Eb; [ | discriminate ]. injection E as <- <-. now apply (T ps' H [] ys' r').
    - now apply (T ps' H args ys r). }
  assert (S1 : forall p ps, positional p = true ->
    (forall args ys r, bind ps args = Ok (ys, r) -> length ys = count positional ps /\ forall k, k < count positional ps -> nth_error ys k = Some (nth_error args k)) ->
    forall args ys r, bind (p :: ps) args = Ok (ys, r) -> length ys = count positional (p :: ps) /\ forall k, k < count positional (p :: ps) -> nth_error ys k = Some (nth_error args k)).
  { intros p ps' P IH args ys r E. assert (C : count positional (p :: ps') = S (count positional ps')) by (unfold count; cbn [filter]; now rewrite P).
    rewrite C. rewrite bind_pos in E by exact P. destruct args as [|a args].
    - destruct (p_default p); [ | discriminate ]. destruct (bind ps' []) as [ (ys' & r') | ] eqn:Eb; [ | discriminate ]. injection E as <- <-.
      destruct (IH [] ys' r' Eb) as (L & K). split; [ cbn; lia | ]. intros [|k] Hk; [ reflexivity | ]. cbn [nth_error]. rewrite K by lia. now destruct k.
    - destruct (bind ps' args) as [ (ys' & r') | ] eqn:Eb; [ | discriminate ]. injection E as <- <-.
      destruct (IH args ys' r' Eb) as (L & K). split; [ cbn; lia | ]. intros [|k] Hk; [ reflexivity | ]. cbn [nth_error]. now rewrite K by lia. }
  assert (O : forall ps, opt_form ps -> forall args ys r, bind ps args = Ok (ys, r) ->
    length ys = count positional ps /\ forall k, k < count positional ps -> nth_error ys k = Some (nth_error args k)).
  { induction 1 as [ ps' H | p ps' P D H IH ].
    - intros args ys r E. destruct (Q ps' H) as (C & Z). rewrite C, (Z args ys r E). split; [ reflexivity | lia ].
    - now apply S1. }
  induction 1 as [ ps H | p ps P D H IH ]; [ now apply O | now apply S1 ].
Qed.

Lemma map_binds ps w x y : signature ps -> count kw_required ps = 0 -> adapt (Plain ps) = Ok w ->
  binds (apply_map (A := A) (Plain ps) w x y).
Proof.
  intros S K E. apply adapt_plain in E. unfold apply_map, call.
  assert (R : count required ps <= count positional ps).
  { unfold count. clear. induction ps as [|p ps IH]; [ now cbn | ]. cbn [filter]. unfold required at 1. destruct (positional p); [ destruct (p_default p) | ]; cbn [negb andb length] in *; lia. }
  destruct E as [ (C & ->) | (C & ->) ]; apply bind_iff; try exact S; unfold accepts; cbn [length]; lia.
Qed.
Lemma map_args ps w x y ys r : signature ps -> adapt (Plain ps) = Ok w -> apply_map (A := A) (Plain ps) w x y = Ok (ys, r) ->
  ys = if w then [Some x; Some y] else [Some y].
Proof.
  intros S E B. apply adapt_plain in E. unfold apply_map, call in B. destruct E as [ (C & ->) | (C & ->) ].
  - destruct (bound_args ps S _ _ _ B) as (L & K). rewrite C in *. destruct ys as [|a [|]]; try discriminate. specialize (K 0 ltac:(lia)). cbn in K. congruence.
  - destruct (bound_args ps S _ _ _ B) as (L & K). rewrite C in *. destruct ys as [|a [|b [|]]]; try discriminate.
    pose proof (K 0 ltac:(lia)) as K0. pose proof (K 1 ltac:(lia)) as K1. cbn in K0, K1. congruence.
Qed.
(** A function that takes exactly one or exactly two arguments is called with
    the value, or with the position and the value. *)
Lemma map_exact ps n : signature ps -> (forall k, accepts ps k <-> k = n) -> n = 1 \/ n = 2 ->
  forall x y : A, exists w r, adapt (Plain ps) = Ok w /\ apply_map (Plain ps) w x y = Ok ((if n =? 1 then [Some y] else [Some x; Some y]), r).
Proof.
  intros S H N x y.
  assert (A0 : accepts ps n) by now apply H. destruct A0 as (Rq & Pv & K).
  assert (V : count variadic ps = 0).
  { destruct (count variadic ps) as [|v] eqn:V; [ reflexivity | ]. assert (accepts ps (n + 1)) as Hn by (unfold accepts; lia). apply H in Hn. lia. }
  assert (C : count positional ps = n).
  { assert (R : count required ps <= count positional ps).
    { unfold count. clear. induction ps as [|p ps IH]; [ now cbn | ]. cbn [filter]. unfold required at 1. destruct (positional p); [ destruct (p_default p) | ]; cbn [negb andb length] in *; lia. }
    assert (accepts ps (count positional ps)) as Hn by (unfold accepts; lia). now apply H in Hn. }
  assert (E : exists w, adapt (Plain ps) = Ok w /\ w = negb (n =? 1)).
  { destruct N as [ -> | -> ]; cbn; eexists; (split; [ | reflexivity ]); apply adapt_plain; rewrite C; [ now left | now right ]. }
  destruct E as (w & E & Ew). destruct (map_binds ps w x y S K E) as ((ys & r) & B). exists w, r. split; [ exact E | ].
  rewrite B. pose proof (map_args ps w x y ys r S E B) as G. f_equal. f_equal. rewrite G, Ew. now destruct (n =? 1).
Qed.

(** ** Observers *)
Lemma notify_binds ps w d : signature ps -> count kw_required ps = 0 -> wants_interval (Plain ps) = Ok w ->
  (binds (notify (A := A) (Plain ps) w d) <-> (count positional ps = 1 \/ count required ps = 0)).
Proof.
  intros S K E. unfold wants_interval in E. rewrite count_plain in E. cbn [rbind] in E. injection E as <-. unfold notify, call.
  assert (R : count required ps <= count positional ps).
  { unfold count. clear. induction ps as [|p ps IH]; [ now cbn | ]. cbn [filter]. unfold required at 1. destruct (positional p); [ destruct (p_default p) | ]; cbn [negb andb length] in *; lia. }
  destruct (count positional ps =? 1) eqn:C; [ apply Nat.eqb_eq in C | apply Nat.eqb_neq in C ]; rewrite bind_iff by exact S; unfold accepts; cbn [length]; lia.
Qed.
Lemma notify_exact ps n : signature ps -> (forall k, accepts ps k <-> k = n) -> n <= 1 ->
  forall d : A, exists w r, wants_interval (Plain ps) = Ok w /\ notify (Plain ps) w d = Ok ((if n =? 1 then [Some d] else []), r).
Proof.
  intros S H N d. assert (A0 : accepts ps n) by now apply H. destruct A0 as (Rq & Pv & K).
  assert (V : count variadic ps = 0).
  { destruct (count variadic ps) as [|v] eqn:V; [ reflexivity | ]. assert (accepts ps (n + 1)) as Hn by (unfold accepts; lia). apply H in Hn. lia. }
  assert (C : count positional ps = n).
  { assert (R : count required ps <= count positional ps).
    { unfold count. clear. induction ps as [|p ps IH]; [ now cbn | ]. cbn [filter]. unfold required at 1. destruct (positional p); [ destruct (p_default p) | ]; cbn [negb andb length] in *; lia. }
    assert (accepts ps (count positional ps)) as Hn by (unfold accepts; lia). now apply H in Hn. }
  exists (n =? 1). unfold wants_interval. rewrite count_plain. cbn [rbind]. rewrite C.
  assert (B : binds (notify (Plain ps) (n =? 1) d)).
  { unfold notify, call. destruct (n =? 1) eqn:E; apply bind_iff; try exact S; apply H; cbn [length]; [ apply Nat.eqb_eq in E | apply Nat.eqb_neq in E ]; lia. }
  destruct B as ((ys & r) & B). exists r. split; [ reflexivity | ]. rewrite B. f_equal. f_equal.
  unfold notify, call in B. destruct (n =? 1) eqn:E; destruct (bound_args ps S _ _ _ B) as (L & G); rewrite C in *.
  - apply Nat.eqb_eq in E. subst n. rewrite E in *. destruct ys as [|a [|]]; try discriminate. specialize (G 0 ltac:(lia)). cbn in G. congruence.
  - apply Nat.eqb_neq in E. destruct ys; [ reflexivity | cbn in L; lia ].
Qed.
End Facts.

(** ** Signatures on which the code goes wrong *)
Definition one_and_option := [mkParam PosOrKw false; mkParam PosOrKw true].
Lemma option_sig : signature one_and_option.
Proof. apply sg_req; [ reflexivity.. | ]. apply sg_opt, of_opt; [ reflexivity.. | ]. apply of_rest, rf_tail, tf_nil. Qed.
Lemma option_swapped : exists ps, signature ps /\ accepts ps 1 /\
  forall (A : Type) (x y : A), exists w, adapt (Plain ps) = Ok w /\ apply_map (Plain ps) w x y = Ok ([Some x; Some y], []).
Proof. exists one_and_option. split; [ exact option_sig | ]. split; [ unfold accepts; cbn; lia | ]. intros A x y. now exists true. Qed.
Lemma anything_refused : exists ps, signature ps /\ accepts ps 1 /\ accepts ps 2 /\ adapt (Plain ps) = Err EExc.
Proof. exists [mkParam VarPos false]. split; [ apply sg_opt, of_rest, rf_var, tf_nil | ]. unfold accepts. cbn. lia || (repeat split; lia || reflexivity || auto). Qed.
Lemma builtin_two : exists ps, signature ps /\ accepts ps 2 /\ adapt (Builtin ps) = Ok false /\
  forall (A : Type) (x y : A), apply_map (Builtin ps) false x y = Err EType.
Proof.
  exists [mkParam PosOnly false; mkParam PosOnly false]. split; [ apply sg_req; [ reflexivity.. | ]; apply sg_req; [ reflexivity.. | ]; apply sg_opt, of_rest, rf_tail, tf_nil | ].
  split; [ unfold accepts; cbn; lia | ]. now split.
Qed.
Lemma option_observer : exists ps, signature ps /\ accepts ps 1 /\ wants_interval (Plain ps) = Ok false /\
  forall (A : Type) (d : A), notify (Plain ps) false d = Err EType.
Proof. exists one_and_option. split; [ exact option_sig | ]. split; [ unfold accepts; cbn; lia | ]. now split. Qed.
