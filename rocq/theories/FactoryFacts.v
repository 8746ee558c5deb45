(** Facts about Factory.v. *)
From Coq Require Import String List ZArith QArith Qcanon Bool Lia.
From Verif Require Import Base Num NumFacts Interval IntervalFacts Curve BaseFacts Points PointsDec PointsMut BaseEx Combine CombineFacts CombineLine Extension Factory.
Import ListNotations.
Open Scope list_scope.

(** ** What a program did, read off the program alone *)
Definition fresh (o : op xq) : list (option xq * ival xq) :=
  match o with OpConst v => [(v, i_infinite)] | OpNew v d => [(v, i_parse d)] | _ => [] end.
Definition objects (l : list (op xq)) : list (option xq * ival xq) := (Some (Fin 0), i_infinite) :: flat_map fresh l.
Fixpoint last_write (h : nat) (l : list (op xq)) : option (option xq) :=
  match l with
  | [] => None
  | o :: l' =>
      match last_write h l' with
      | Some v => Some v
      | None => match o with OpSet h' v => if (h' =? h)%nat then Some v else None | _ => None end
      end
  end.
(** the value that object [h] must have after [l] *)
Definition value_of (l : list (op xq)) (h : nat) : option xq :=
  match last_write h l with Some v => v | None => fst (nth h (objects l) (None, i_empty)) end.
Definition domain_of (l : list (op xq)) (h : nat) : ival xq := snd (nth h (objects l) (None, i_empty)).

Definition op_ok (o : op xq) : Prop := match o with OpNew _ (Some d) => iok d | _ => True end.

(** ** The heap holds these values *)
Definition good_k (k : const xq) (v : option xq) (d : ival xq) : Prop := k_val k = v /\ k_dom k = d /\ iok d /\ idle (k_upd k).
Lemma opt_same_eq (a b : option xq) : opt_same a b = true -> a = b.
Proof. destruct a, b; cbn; intros E; try discriminate; auto. f_equal. apply xq_eqb_eq, E. Qed.
Lemma iok_inf : iok (@i_infinite xq XQ).
Proof. split; cbn; discriminate. Qed.
Lemma k_set_good k v d v' : good_k k v d -> exists k' , good_k k' v' d /\
  k_set k v' = (k', if opt_same v' v then [] else if i_is_empty d then [] else [EvBegin d; EvEnd d]).
Proof.
  intros (<- & <- & O & I). unfold k_set. destruct (opt_same v' (k_val k)) eqn:E.
  - exists k. split; auto. split; [symmetry; apply opt_same_eq, E|auto].
  - destruct (i_is_empty (k_dom k)) eqn:X.
    + unfold begin_update, end_update. rewrite X. cbn. eexists. split; [|reflexivity]. (split; [reflexivity|split; [reflexivity|split; [exact O|exact I]]]).
    + destruct (whole_update (k_upd k) (k_dom k) I O X) as [A B]. rewrite A, B. eexists. split; [|reflexivity]. (split; [reflexivity|split; [reflexivity|split; [exact O|split; reflexivity]]]).
Qed.

Definition good (l : list (op xq)) (H : heap xq) : Prop :=
  length H = length (objects l) /\
  forall h k, nth_error H h = Some k -> good_k k (value_of l h) (domain_of l h).

Lemma nth_set {A} (l : list A) i j v : (i < length l)%nat -> nth_error (list_set l i v) j = if (j =? i)%nat then Some v else nth_error l j.
Proof.
  revert i j. induction l as [|a l IH]; intros [|i] [|j] L; cbn in *; try lia; auto. apply IH. lia.
Qed.
Lemma set_len {A} (l : list A) i v : length (list_set l i v) = length l.
Proof. revert i. induction l as [|a l IH]; intros [|i]; cbn; auto. Qed.
Lemma last_write_app h l1 l2 : last_write h (l1 ++ l2) = match last_write h l2 with Some v => Some v | None => last_write h l1 end.
Proof.
  induction l1 as [|o l1 IH]; cbn; [destruct (last_write h l2); auto|]. rewrite IH. destruct (last_write h l2); auto.
Qed.
Lemma objects_app l o : objects (l ++ [o]) = objects l ++ fresh o.
Proof. unfold objects. rewrite flat_map_app. cbn. rewrite app_nil_r. reflexivity. Qed.
Lemma value_kept l o h : (h < length (objects l))%nat -> (forall v, o <> OpSet h v) -> value_of (l ++ [o]) h = value_of l h.
Proof.
  intros L NS. unfold value_of. rewrite last_write_app. cbn [last_write]. rewrite objects_app, app_nth1 by exact L.
  destruct o as [| | | |h' w| | | |]; auto. destruct (Nat.eqb_spec h' h) as [->|]; auto. exfalso. apply (NS w). reflexivity.
Qed.
Lemma domain_kept l o h : (h < length (objects l))%nat -> domain_of (l ++ [o]) h = domain_of l h.
Proof. intros L. unfold domain_of. rewrite objects_app, app_nth1 by exact L. reflexivity. Qed.

(** a write through a handle that did not exist would have raised *)
Definition tame (l : list (op xq)) : Prop := forall h, (length (objects l) <= h)%nat -> last_write h l = None.

Lemma exec_good l H o H' a : good l H -> tame l -> op_ok o -> exec H o = Ok (H', a) -> good (l ++ [o]) H' /\ tame (l ++ [o]).
Proof.
  intros [LN G] TM OK E.
  assert (SAME : H' = H -> fresh o = [] -> (forall h v, o <> OpSet h v) -> good (l ++ [o]) H' /\ tame (l ++ [o])).
  { intros -> FR NS. assert (OB : objects (l ++ [o]) = objects l) by (rewrite objects_app, FR, app_nil_r; reflexivity).
    assert (LW : forall h, last_write h (l ++ [o]) = last_write h l) by (intros h; rewrite last_write_app; cbn; destruct o; auto; exfalso; eapply NS; reflexivity).
    split.
    - split; [rewrite OB; exact LN|]. intros h k X. unfold value_of, domain_of. rewrite LW, OB. apply G, X.
    - intros h X. rewrite LW. apply TM. rewrite <- OB. exact X. }
  assert (NEW : forall v d, H' = H ++ [k_new v d] -> fresh o = [(v, i_parse d)] -> iok (i_parse d) -> (forall h w, o <> OpSet h w) -> good (l ++ [o]) H' /\ tame (l ++ [o])).
  { intros v d -> FR OD NS. assert (OB : objects (l ++ [o]) = objects l ++ [(v, i_parse d)]) by (rewrite objects_app, FR; reflexivity).
    assert (LW : forall h, last_write h (l ++ [o]) = last_write h l) by (intros h; rewrite last_write_app; cbn; destruct o; auto; exfalso; eapply NS; reflexivity).
    split.
    - split; [rewrite OB, !app_length, LN; reflexivity|]. intros h k X.
      destruct (Nat.lt_ge_cases h (length H)) as [L|L].
      + rewrite nth_error_app1 in X by exact L. rewrite value_kept, domain_kept; [apply G, X| | |]; try (rewrite <- LN; exact L). intros w. apply NS.
      + rewrite nth_error_app2 in X by exact L. destruct (h - length H)%nat as [|n] eqn:D; [|destruct n; discriminate X].
        injection X as <-. assert (h = length (objects l)) as -> by (rewrite <- LN; lia).
        unfold value_of, domain_of. rewrite LW, TM by lia. rewrite OB, app_nth2, Nat.sub_diag by lia. cbn.
        repeat split; cbn; auto; apply OD.
    - intros h X. rewrite LW. apply TM. rewrite OB, app_length in X. change (length [(v, i_parse d)]) with 1%nat in X. lia. }
  destruct o as [|w|w|w d|h w|h x|h x|h y|h]; cbn [exec] in E.
  - injection E as <- <-. apply SAME; auto; discriminate.
  - injection E as <- <-. apply SAME; auto; discriminate.
  - injection E as <- <-. apply (NEW w None); auto; try discriminate. apply iok_inf.
  - injection E as <- <-. apply (NEW w d); auto; try discriminate. destruct d; cbn in *; auto. apply iok_inf.
  - destruct (nth_error H h) as [k|] eqn:X; [|discriminate E].
    destruct (k_set_good k _ _ w (G _ _ X)) as (k' & GK & KS). rewrite KS in E. injection E as <- <-.
    assert (L : (h < length H)%nat) by (apply nth_error_Some; rewrite X; discriminate).
    assert (OB : objects (l ++ [OpSet h w]) = objects l) by (rewrite objects_app; apply app_nil_r).
    split.
    + split; [rewrite set_len, OB; exact LN|]. intros j k2 Y. rewrite nth_set in Y by exact L. destruct (Nat.eqb_spec j h) as [->|NE].
      * injection Y as <-. unfold value_of. rewrite last_write_app. cbn. rewrite Nat.eqb_refl. rewrite domain_kept by (rewrite <- LN; exact L). exact GK.
      * assert (LJ : (j < length H)%nat) by (apply nth_error_Some; rewrite Y; discriminate).
        rewrite value_kept, domain_kept; [apply G, Y| | |]; try (rewrite <- LN; exact LJ). intros v Z. injection Z as Z _. congruence.
    + intros j Y. rewrite OB in Y. rewrite last_write_app. cbn. destruct (Nat.eqb_spec h j) as [->|]; [rewrite LN in L; lia|]. apply TM, Y.
  - unfold deref in E. destruct (nth_error H h); [injection E as <- <-|discriminate E]. apply SAME; auto; discriminate.
  - unfold deref in E. destruct (nth_error H h); [injection E as <- <-|discriminate E]. apply SAME; auto; discriminate.
  - unfold deref in E. destruct (nth_error H h); [injection E as <- <-|discriminate E]. apply SAME; auto; discriminate.
  - unfold deref in E. destruct (nth_error H h); [injection E as <- <-|discriminate E]. apply SAME; auto; discriminate.
Qed.
Lemma run_good l2 : forall l1 H H' r, good l1 H -> tame l1 -> Forall op_ok l2 -> run H l2 = Ok (H', r) -> good (l1 ++ l2) H'.
Proof.
  induction l2 as [|o l2 IH]; intros l1 H H' r G TM F E; cbn [run] in E.
  - injection E as <- <-. rewrite app_nil_r. exact G.
  - inversion F as [|? ? O F']; subst. destruct (exec H o) as [[H1 a]|] eqn:X; [|discriminate E]. cbn [rbind] in E.
    destruct (run H1 l2) as [[H2 r2]|] eqn:Y; [|discriminate E]. cbn [rbind] in E. injection E as <- <-.
    destruct (exec_good _ _ _ _ _ G TM O X) as [G1 T1]. replace (l1 ++ o :: l2) with ((l1 ++ [o]) ++ l2) by (rewrite <- app_assoc; reflexivity).
    eapply IH; eauto.
Qed.
Lemma started l H r : Forall op_ok l -> run heap0 l = Ok (H, r) -> good l H.
Proof.
  intros F E. change l with ([] ++ l). eapply run_good; eauto.
  - split; [reflexivity|]. intros [|[|h]] k X; try discriminate X. injection X as <-. repeat split; cbn; auto; discriminate.
  - intros h X. reflexivity.
Qed.

(** ** Top *)
Lemma const_values l H r h x : Forall op_ok l -> run heap0 l = Ok (H, r) -> (h < length (objects l))%nat ->
  exec H (OpY h x) = Ok (H, AVal (value_of l h)) /\ exec H (OpDy h x) = Ok (H, AVal (Some (Fin 0))) /\ exec H (OpDomain h) = Ok (H, ADom (domain_of l h)).
Proof.
  intros F E L. destruct (started _ _ _ F E) as [LN G]. unfold exec, deref. destruct (nth_error H h) as [k|] eqn:X.
  - destruct (G _ _ X) as (A & B & _). rewrite A, B. auto.
  - apply nth_error_None in X. rewrite LN in X. exfalso. lia.
Qed.
Lemma const_notifies l H r h v : Forall op_ok l -> run heap0 l = Ok (H, r) -> (h < length (objects l))%nat ->
  exists H', exec H (OpSet h v) = Ok (H', ATold (if opt_same v (value_of l h) then [] else if i_is_empty (domain_of l h) then [] else [EvBegin (domain_of l h); EvEnd (domain_of l h)])).
Proof.
  intros F E L. destruct (started _ _ _ F E) as [LN G]. unfold exec. destruct (nth_error H h) as [k|] eqn:X.
  - destruct (k_set_good k _ _ v (G _ _ X)) as (k' & _ & KS). rewrite KS. eauto.
  - apply nth_error_None in X. rewrite LN in X. exfalso. lia.
Qed.
Lemma const_fresh l H r v d : Forall op_ok l -> run heap0 l = Ok (H, r) -> (exists H', exec H (OpNew v d) = Ok (H', AObj (length (objects l)))) /\
  exists H', exec H (OpConst v) = Ok (H', AObj (length (objects l))).
Proof. intros F E. destruct (started _ _ _ F E) as [LN G]. cbn [exec]. rewrite LN. eauto. Qed.
Lemma no_zero_write l : (forall v, In (OpSet 0 v) l -> v = Some (Fin 0)) -> match last_write 0 l with Some v => v = Some (Fin 0) | None => True end.
Proof.
  induction l as [|o l IH]; intros A; cbn; [exact I|]. assert (B := IH (fun v X => A v (or_intror X))).
  destruct (last_write 0 l); auto. destruct o as [| | | |h' w| | | |]; auto. destruct (Nat.eqb_spec h' 0) as [->|]; auto. apply A. left. reflexivity.
Qed.
Lemma zero_is_zero l H r w x : Forall op_ok l -> run heap0 l = Ok (H, r) -> (forall v, In (OpSet 0 v) l -> v = Some (Fin 0)) ->
  exec H OpZero = Ok (H, AObj 0) /\ exec H (OpCurveZero w) = Ok (H, AObj 0) /\ exec H (OpY 0 x) = Ok (H, AVal (Some (Fin 0))).
Proof.
  intros F E A. repeat split. destruct (const_values l H r 0 x F E) as (B & _); [cbn; lia|]. rewrite B. repeat f_equal. unfold value_of.
  pose proof (no_zero_write l A) as C. destruct (last_write 0 l); auto.
Qed.
Lemma const_inverse l H r h y : Forall op_ok l -> run heap0 l = Ok (H, r) -> (h < length (objects l))%nat ->
  exec H (OpX h (Some y)) = Ok (H, AVal (match value_of l h with Some v => if xq_eqb y v then Some (Fin 0) else None | None => None end)).
Proof.
  intros F E L. destruct (started _ _ _ F E) as [LN G]. unfold exec, deref. destruct (nth_error H h) as [k|] eqn:X.
  - destruct (G _ _ X) as (A & _). rewrite A. destruct (value_of l h); reflexivity.
  - apply nth_error_None in X. rewrite LN in X. exfalso. lia.
Qed.

(** ** The empty curve *)
Lemma empty_contains st en x : i_contains_gen st en (@i_empty xq XQ) x = false.
Proof. reflexivity. Qed.
Notation E := (@empty_curve xq XQ).
Lemma empty_steps x m lim : c_next E x m lim = Ok None /\ c_prev E x m lim = Ok None.
Proof.
  unfold empty_curve, base_x_next, base_x_previous. cbn [c_next c_prev].
  destruct m; cbn [resolve_min_step]; rewrite !empty_contains; auto.
Qed.
Lemma empty_sample fuel d ms st : sample_points fuel E d ms st = Ok [].
Proof. apply sample_empty. destruct d; reflexivity. Qed.
Lemma empty_from x n b o ms : sample_points_from_x (fun v => match v with None => true | Some _ => false end) E x n b o ms = Ok [].
Proof.
  unfold sample_points_from_x. destruct o; cbn [negb]; [|reflexivity]. 
  destruct (Z.to_nat _) as [|k]; [reflexivity|]. cbn [spfx_loop].
  destruct (if (n <? 0)%Z then negb b else b); rewrite ?(proj1 (empty_steps _ _ _)), ?(proj2 (empty_steps _ _ _)); reflexivity.
Qed.
Lemma empty_all x y m lim fwd fuel d ms st n b o : 
  c_y E x = Ok None /\ empty_d_y x fwd m lim = Ok None /\ empty_x (T := xq) y = None /\ d_y E x fwd m lim = Ok None /\
  c_next E x m lim = Ok None /\ c_prev E x m lim = Ok None /\ first_point E = Ok None /\ last_point E = Ok None /\
  sample_points fuel E d ms st = Ok [] /\ get_range fuel E d ms st = Ok i_empty /\
  sample_points_from_x (fun v => match v with None => true | Some _ => false end) E x n b o ms = Ok [].
Proof.
  repeat split; try apply empty_steps; try apply empty_sample; try apply empty_from.
  - unfold d_y. destruct fwd; rewrite ?(proj1 (empty_steps _ _ _)), ?(proj2 (empty_steps _ _ _)); reflexivity.
  - unfold get_range. rewrite empty_sample. reflexivity.
Qed.
Lemma fold_inter_empty (l : list (ival xq)) : fold_left i_inter2 l i_empty = i_empty.
Proof. induction l as [|a l IH]; cbn; auto. Qed.
Lemma inter2_empty_r (a : ival xq) : i_inter2 a i_empty = i_empty.
Proof. unfold i_inter2. rewrite i_empty_is_empty, orb_true_r. reflexivity. Qed.
Lemma inter_empty (l : list (ival xq)) : In i_empty l -> i_inter l = i_empty.
Proof.
  destruct l as [|a l]; [reflexivity|]. cbn. intros [->|I]; [apply fold_inter_empty|].
  revert a. induction l as [|b l IH]; intros a; [contradiction|]. cbn. destruct I as [->|I].
  - rewrite inter2_empty_r. apply fold_inter_empty.
  - apply IH, I.
Qed.
Lemma empty_absorbs (tfm : xq -> list (option xq) -> res (option xq)) cs x : In E cs ->
  c_dom (aggregate false None tfm cs) = i_empty /\ c_y (aggregate false None tfm cs) x = Ok None.
Proof.
  intros I. assert (D : agg_dom false cs = i_empty) by (apply inter_empty; apply (in_map c_dom) in I; exact I).
  cbn [aggregate c_dom c_y]. rewrite D. auto.
Qed.

(** ** Extensions by name *)
Lemma ext_constant k : extension (T := xq) "constant" k = Ok MConstant <-> k = mkKw None None None.
Proof.
  destruct k as [p d r]. cbn. split; [|intros [=-> -> ->]; reflexivity]. destruct p, d, r; intros H; try discriminate H; reflexivity.
Qed.
Lemma ext_unknown (name : string) (k : kwds xq) : ~ In name ["constant"; "tangent"; "sin"]%string -> extension name k = Err EExc.
Proof.
  intros NI. unfold extension.
  destruct (String.eqb_spec name "constant") as [->|_]; [exfalso; apply NI; cbn; auto|].
  destruct (String.eqb_spec name "tangent") as [->|_]; [exfalso; apply NI; cbn; auto|].
  destruct (String.eqb_spec name "sin") as [->|_]; [exfalso; apply NI; cbn; auto|]. reflexivity.
Qed.
Lemma ext_kinds (name : string) (k : kwds xq) m : extension name k = Ok m ->
  match m with
  | MConstant => name = "constant"%string
  | MTangent t => name = "tangent"%string /\ kw_period k = None /\ tangent_args k = Ok t
  | MSin p t => name = "sin"%string /\ kw_period k = Some p /\ xq_ltb (Fin 0) p = true /\ tangent_args k = Ok t
  end.
Proof.
  unfold extension. destruct (String.eqb_spec name "constant") as [->|_].
  { destruct k as [p d r]. destruct p, d, r; intros H; try discriminate H. injection H as <-. reflexivity. }
  destruct (String.eqb_spec name "tangent") as [->|_].
  { destruct (tangent_args k) as [t|]; [|discriminate]. cbn [rbind]. destruct (kw_period k); intros H; [discriminate H|]. injection H as <-. auto. }
  destruct (String.eqb_spec name "sin") as [->|_]; [|discriminate].
  destruct (kw_period k) as [p|].
  - destruct (p >? n_zero)%num eqn:G; [|discriminate]. destruct (tangent_args k) as [t|]; [|discriminate]. cbn [rbind]. intros [=<-]. auto.
  - cbn. discriminate.
Qed.
Lemma tangent_modes (k : kwds xq) t : tangent_args k = Ok t ->
  match t with
  | TSlope => kw_degree k = None /\ kw_rperiod k = None
  | TDegree n => kw_rperiod k = None /\ (0 < n)%nat /\ exists d, kw_degree k = Some d /\ n_trunc d = Ok (Z.of_nat n)
  | TPeriod p => kw_degree k = None /\ kw_rperiod k = Some p /\ xq_ltb (Fin 0) p = true
  end.
Proof.
  unfold tangent_args. destruct (kw_degree k) as [d|].
  - destruct (n_trunc d) as [n|] eqn:ND; [|discriminate]. cbn [rbind]. destruct (Z.ltb_spec 0 n) as [P|]; [|discriminate]. cbn [rbind].
    destruct (kw_rperiod k) as [p|]; [destruct (p >? n_zero)%num; discriminate|]. cbn [rbind]. intros [=<-]. repeat split; [lia|]. exists d. split; auto. rewrite Z2Nat.id by lia. exact ND.
  - cbn [rbind]. destruct (kw_rperiod k) as [p|]; [|cbn; intros [=<-]; auto].
    destruct (p >? n_zero)%num eqn:G; [|discriminate]. cbn [rbind]. intros [=<-]. auto.
Qed.

(** ** Examples *)
Definition z5 : list (op xq) := [OpZero; OpConst (Some (Fin (QcofZ 7))); OpSet 1 (Some (Fin (QcofZ 3))); OpSet 0 (Some (Fin (QcofZ 5)))].
Lemma z5_runs : exists H r, run heap0 z5 = Ok (H, r) /\ Forall op_ok z5 /\ value_of z5 0 = Some (Fin (QcofZ 5)) /\ value_of z5 1 = Some (Fin (QcofZ 3)).
Proof. eexists _, _. split; [reflexivity|]. split; [repeat constructor|]. split; reflexivity. Qed.
Definition z1 : list (op xq) := [OpConst (Some (Fin (QcofZ 7))); OpSet 1 (Some (Fin (QcofZ 3))); OpZero].
Lemma z1_runs : exists H r, run heap0 z1 = Ok (H, r) /\ Forall op_ok z1 /\ (forall v, In (OpSet 0 v) z1 -> v = Some (Fin 0)) /\ value_of z1 1 = Some (Fin (QcofZ 3)) /\ (1 < length (objects z1))%nat.
Proof.
  eexists _, _. split; [reflexivity|]. split; [repeat constructor|]. split; [|split; [reflexivity|cbn; lia]].
  intros v [X|[X|[X|[]]]]; discriminate X.
Qed.
Lemma zero_shared : exists l H r, Forall op_ok l /\ run heap0 l = Ok (H, r) /\
  exec H OpZero = Ok (H, AObj 0) /\ exec H (OpCurveZero (Some (Fin (QcofZ 3)))) = Ok (H, AObj 0) /\ forall x, exec H (OpY 0 x) = Ok (H, AVal (Some (Fin (QcofZ 5)))).
Proof. exists z5. eexists _, _. split; [repeat constructor|]. split; [reflexivity|]. split; [reflexivity|]. split; reflexivity. Qed.
(** Constant(5, domain=[3, 4]) *)
Definition bounded : list (op xq) := [OpNew (Some (Fin (QcofZ 5))) (Some (i_closed (Fin (QcofZ 3)) (Fin (QcofZ 4))))].
Lemma outside_domain : exists H r, Forall op_ok bounded /\ run heap0 bounded = Ok (H, r) /\
  exec H (OpDomain 1) = Ok (H, ADom (i_closed (Fin (QcofZ 3)) (Fin (QcofZ 4)))) /\
  i_contains (i_closed (Fin (QcofZ 3)) (Fin (QcofZ 4))) (Fin 0) = false /\
  exec H (OpY 1 (Fin 0)) = Ok (H, AVal (Some (Fin (QcofZ 5)))) /\ exec H (OpX 1 (Some (Fin (QcofZ 5)))) = Ok (H, AVal (Some (Fin 0))).
Proof.
  eexists _, _. split; [repeat constructor; cbn; discriminate|]. split; [reflexivity|]. repeat split.
Qed.
Lemma sin_needs_period : extension (T := xq) "sin" (mkKw None None None) = Err EAssert /\ extension (T := xq) "constant" (mkKw (Some (Fin (QcofZ 2))) None None) = Err EType /\
  extension (T := xq) "sin" (mkKw (Some (Fin (QcofZ 2))) (Some (Fin (QcofZ 3))) None) = Ok (MSin (Fin (QcofZ 2)) (TDegree 3)) /\
  extension (T := xq) "tangent" (mkKw None None None) = Ok (MTangent TSlope).
Proof. repeat split; reflexivity. Qed.
