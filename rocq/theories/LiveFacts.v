(** Values, domains and notifications of networks of derived curves. *)
From Coq Require Import List ZArith QArith Qcanon Bool Lia Lqa Arith Wf_nat Permutation.
From Verif Require Import Base Num NumFacts Interval IntervalFacts Curve Graph Combine CombineFacts PointsOps UpdFacts PointsDec GraphFacts GraphSettle GraphTop Live LiveNet LiveSpec.
Import ListNotations.

(** ** Decisions *)
Lemma xq_dec (a b : xq) : {a = b} + {a <> b}.
Proof. decide equality. apply Qc_eq_dec. Qed.
Lemma exn_dec (a b : exn) : {a = b} + {a <> b}.
Proof. decide equality. Qed.
Lemma ry_dec (a b : res (option xq)) : {a = b} + {a <> b}.
Proof. decide equality; [decide equality; apply xq_dec|apply exn_dec]. Qed.
Lemma y_same c c' q : ~ y_changes c c' q -> c_y c' (Fin q) = c_y c (Fin q).
Proof. unfold y_changes. destruct (ry_dec (c_y c' (Fin q)) (c_y c (Fin q))); tauto. Qed.
Lemma dom_same c c' q : ~ dom_changes c c' q -> i_contains (c_dom c') (Fin q) = i_contains (c_dom c) (Fin q).
Proof. unfold dom_changes. destruct (bool_dec (i_contains (c_dom c') (Fin q)) (i_contains (c_dom c) (Fin q))); tauto. Qed.
Lemma y_changes_dec c c' q : {y_changes c c' q} + {~ y_changes c c' q}.
Proof. unfold y_changes. destruct (ry_dec (c_y c' (Fin q)) (c_y c (Fin q))); [right|left]; tauto. Qed.
Lemma dom_changes_dec c c' q : {dom_changes c c' q} + {~ dom_changes c c' q}.
Proof. unfold dom_changes. destruct (bool_dec (i_contains (c_dom c') (Fin q)) (i_contains (c_dom c) (Fin q))); [right|left]; tauto. Qed.
Lemma exists_dec {A} (P : A -> Prop) (l : list A) : (forall a, {P a} + {~ P a}) -> (exists a, In a l /\ P a) \/ forall a, In a l -> ~ P a.
Proof.
  intros D. induction l as [|a l IH]; [right; contradiction|].
  destruct (D a) as [H|H]; [left; exists a; simpl; auto|]. destruct IH as [[b [I Hb]]|IH]; [left; exists b; simpl; auto|].
  right. intros b [<-|I]; auto.
Qed.

(** ** The curves of a network *)
Lemma grow_length (env : nat -> ncurve) ns : forall cs, length (grow env cs ns) = (length cs + length ns)%nat.
Proof. induction ns as [|n ns IH]; intros cs; simpl; [lia|]. rewrite IH, app_length. simpl. lia. Qed.
Lemma grow_prefix (env : nat -> ncurve) ns : forall cs, exists l, grow env cs ns = cs ++ l.
Proof.
  induction ns as [|n ns IH]; intros cs; simpl; [exists []; now rewrite app_nil_r|].
  destruct (IH (cs ++ [node_curve (env (length cs)) cs n])) as [l ->]. rewrite <- app_assoc. simpl. eauto.
Qed.
Lemma grow_nth (env : nat -> ncurve) ns : forall cs j n, nth_error ns j = Some n ->
  pick (grow env cs ns) (length cs + j) = node_curve (env (length cs + j)%nat) (firstn (length cs + j) (grow env cs ns)) n.
Proof.
  induction ns as [|m ns IH]; intros cs j n E; [destruct j; discriminate|].
  destruct j as [|j]; simpl in E.
  - injection E as ->. rewrite Nat.add_0_r. cbn [grow]. destruct (grow_prefix env ns (cs ++ [node_curve (env (length cs)) cs n])) as [l ->].
    rewrite <- app_assoc. unfold pick at 1. rewrite app_nth2, Nat.sub_diag by lia. simpl.
    rewrite firstn_app, Nat.sub_diag, firstn_all. simpl. now rewrite app_nil_r.
  - cbn [grow]. specialize (IH (cs ++ [node_curve (env (length cs)) cs m]) j n E).
    rewrite app_length in IH. cbn [length] in IH. replace (length cs + 1 + j)%nat with (length cs + S j)%nat in IH by lia. exact IH.
Qed.
Lemma pick_firstn (cs : list ncurve) k p : (p < k)%nat -> pick (firstn k cs) p = pick cs p.
Proof.
  intros H. unfold pick. revert k p H. induction cs as [|c cs IH]; intros [|k] p H; simpl; try lia; auto.
  destruct p as [|p]; simpl; auto. apply IH. lia.
Qed.
Lemma node_curve_ext own cs cs' (n : node xq) : (forall p, In p (reads n) -> pick cs p = pick cs' p) -> node_curve own cs n = node_curve own cs' n.
Proof.
  destruct n as [|skip param tfm p|a p|u d tfm ps|nr ps]; simpl; intros H; auto.
  - now rewrite H by auto.
  - now rewrite H by auto.
  - f_equal. apply map_ext_in. auto.
  - f_equal. apply map_ext_in. intros [p v] I. simpl. rewrite H; auto. apply in_map_iff. exists (p, v). auto.
Qed.
Lemma curve_eq (env : nat -> ncurve) ns j n : proper ns -> nth_error ns j = Some n ->
  curve_of env ns j = node_curve (env j) (curves env ns) n.
Proof.
  intros W E. unfold curve_of, curves. etransitivity; [exact (grow_nth env ns [] j n E)|]. cbn [length Nat.add].
  apply node_curve_ext. intros p I. apply pick_firstn. destruct (W j n E) as [_ F]. exact (proj1 (Forall_forall _ _) F p I).
Qed.
Lemma curve_out (env : nat -> ncurve) ns j : (length ns <= j)%nat -> curve_of env ns j = empty_curve.
Proof. intros H. unfold curve_of, pick. apply nth_overflow. unfold curves. rewrite grow_length. simpl. lia. Qed.

Section Net.
Variable ns : list (node xq).
Hypothesis W : proper ns.

Lemma doms_iok env : sources_ok ns env -> forall j, iok (c_dom (curve_of env ns j)).
Proof.
  intros S. induction j as [j IH] using lt_wf_ind. destruct (nth_error ns j) as [n|] eqn:E.
  - rewrite (curve_eq env ns j n W E). destruct (W j n E) as [O F]. pose proof (proj1 (Forall_forall _ _) F) as F'.
    destruct n as [|skip param tfm p|a p|u d tfm ps|nr ps]; simpl in *.
    + now apply S.
    + apply IH, F'; auto.
    + destruct O as [k ->]. specialize (IH p (F' p (or_introl eq_refl))). unfold curve_of in IH. destruct (pick (curves env ns) p) as [dd ? ? ? ?]. cbn in *.
      destruct dd as [[x| | |] [z| | |] so eo]; destruct IH as [I1 I2]; split; cbn in *; try congruence; discriminate.
    + apply agg_dom_ok. apply Forall_forall. intros c I. apply in_map_iff in I. destruct I as [p [<- I]]. apply IH, F'; auto.
    + unfold piecewise_dom. rewrite map_map. cbn [snd]. apply union_ok. apply Forall_forall. intros v I. apply in_map_iff in I. destruct I as [p [<- I]].
      exact (proj1 (Forall_forall _ _) O p I).
  - apply nth_error_None in E. rewrite curve_out by auto. split; discriminate.
Qed.

(** ** Where a node changes *)
Variables env env' : nat -> ncurve.
Hypothesis S : sources_ok ns env.
Hypothesis S' : sources_ok ns env'.
Notation yc p q := (y_changes (curve_of env ns p) (curve_of env' ns p) q).
Notation dc p q := (dom_changes (curve_of env ns p) (curve_of env' ns p) q).

Lemma any_y ps q : (exists p, In p ps /\ yc p q) \/ forall p, In p ps -> c_y (curve_of env' ns p) (Fin q) = c_y (curve_of env ns p) (Fin q).
Proof.
  destruct (exists_dec (fun p => yc p q) ps) as [H|H]; [intros p; apply y_changes_dec|left; auto|right].
  intros p I. apply y_same, H, I.
Qed.
Lemma any_dom ps q : (exists p, In p ps /\ dc p q) \/ forall p, In p ps -> i_contains (c_dom (curve_of env' ns p)) (Fin q) = i_contains (c_dom (curve_of env ns p)) (Fin q).
Proof.
  destruct (exists_dec (fun p => dc p q) ps) as [H|H]; [intros p; apply dom_changes_dec|left; auto|right].
  intros p I. apply dom_same, H, I.
Qed.
Lemma rmapM_ext {A B} (f f' : A -> res B) l : (forall a, In a l -> f a = f' a) -> rmapM f l = rmapM f' l.
Proof. induction l as [|a l IH]; intros H; simpl; auto. rewrite H by (simpl; auto). rewrite IH by (intros; apply H; simpl; auto). reflexivity. Qed.
Lemma rmapM_map {A B C} (f : B -> res C) (h : A -> B) l : rmapM f (map h l) = rmapM (fun a => f (h a)) l.
Proof. induction l as [|a l IH]; simpl; auto. now rewrite IH. Qed.

Lemma inter_contains e ps q : sources_ok ns e ->
  i_contains (i_inter (map c_dom (map (pick (curves e ns)) ps))) (Fin q) =
  match ps with [] => false | _ => forallb (fun p => i_contains (c_dom (curve_of e ns p)) (Fin q)) ps end.
Proof.
  intros Se. destruct ps as [|p ps]; [reflexivity|]. apply eq_iff_eq_true. rewrite forallb_forall.
  assert (F : Forall iok (map c_dom (map (pick (curves e ns)) (p :: ps)))).
  { rewrite map_map. apply Forall_forall. intros v I. apply in_map_iff in I. destruct I as [z [<- I]]. apply (doms_iok e Se). }
  rewrite contains_iff; [|now apply inter_ok|discriminate].
  rewrite inter_iff; [|discriminate|auto|discriminate]. rewrite map_map, Forall_forall. split.
  - intros H z I. apply contains_iff; [apply (doms_iok e Se)|discriminate|]. apply H. apply in_map_iff. exists z. auto.
  - intros H v I. apply in_map_iff in I. destruct I as [z [<- I]]. apply contains_iff; [apply (doms_iok e Se)|discriminate|]. now apply H.
Qed.
Lemma union_misses e ps q : sources_ok ns e -> i_contains (i_union (map c_dom (map (pick (curves e ns)) ps))) (Fin q) = false ->
  forall p, In p ps -> i_contains (c_dom (curve_of e ns p)) (Fin q) = false.
Proof.
  intros Se H p I. destruct (i_contains (c_dom (curve_of e ns p)) (Fin q)) eqn:X; auto. exfalso.
  apply contains_iff in X; [|apply (doms_iok e Se)|discriminate].
  assert (F : Forall iok (map c_dom (map (pick (curves e ns)) ps))).
  { rewrite map_map. apply Forall_forall. intros v Iv. apply in_map_iff in Iv. destruct Iv as [z [<- Iz]]. apply (doms_iok e Se). }
  assert (Y : i_contains (i_union (map c_dom (map (pick (curves e ns)) ps))) (Fin q) = true); [|congruence].
  apply contains_iff; [now apply union_ok|discriminate|]. apply union_cover with (c_dom (curve_of e ns p)); auto; [|discriminate].
  rewrite map_map. apply in_map_iff. exists p. auto.
Qed.

(* a union gives what its transform makes of the values, everywhere *)
Lemma union_value e default tfm ps q : sources_ok ns e -> node_tame ns e (NAggregate true default tfm ps) ->
  c_y (aggregate true default tfm (map (pick (curves e ns)) ps)) (Fin q) =
  (let! vals := rmapM (fun p => c_y (curve_of e ns p) (Fin q)) ps in tfm (Fin q) vals).
Proof.
  intros Se [Q Z]. unfold aggregate, c_y at 1, agg_dom. rewrite rmapM_map.
  destruct (i_contains (i_union (map c_dom (map (pick (curves e ns)) ps))) (Fin q)) eqn:X; cbn [negb]; auto.
  pose proof (union_misses e ps q Se X) as M.
  assert (R : rmapM (fun p => c_y (curve_of e ns p) (Fin q)) ps = Ok (map (fun _ => None) ps)).
  { clear X Z. induction ps as [|p ps IH]; simpl; auto. rewrite (Q p (or_introl eq_refl) q (M p (or_introl eq_refl))). cbn.
    rewrite IH; auto; intros; [apply Q|apply M]; simpl; auto. }
  rewrite R. cbn. now rewrite Z.
Qed.

Lemma offset_misc k e p q : let c := curve_of e ns p in
  unoffset_x (Fin k) (Fin q) = Fin (q - k)%Qc /\
  (iok (c_dom c) -> i_contains (offset_interval (Fin k) (c_dom c)) (Fin q) = i_contains (c_dom c) (Fin (q - k)%Qc)).
Proof.
  intros c. split; [reflexivity|]. intros O.
  assert (E : offset_interval (Fin k) (c_dom c) = t_shift k (c_dom c)).
  { unfold offset_interval, t_shift, offset_x. destruct (c_dom c) as [[x| | |] [z| | |] so eo]; reflexivity. }
  apply eq_iff_eq_true. rewrite E. rewrite contains_iff; [|now apply iok_shift|discriminate]. rewrite contains_iff; auto; [|discriminate].
  rewrite <- (shift_imem k (c_dom c)); auto; [|discriminate]. cbn [xq_add]. replace (q - k + k)%Qc with q by ring. reflexivity.
Qed.

(** ** A change of a node comes from a change of a node it reads *)
Lemma y_from j n q : nth_error ns j = Some n -> n <> NSource -> node_tame ns env n -> node_tame ns env' n -> yc j q ->
  exists p z, In p (reads n) /\ (forall D, iok D -> imem D (Fin z) -> imem (forwards n D) (Fin q)) /\
    (yc p z \/ (local_domain ns p /\ dc p z)).
Proof.
  intros E Ns T T' H. unfold y_changes in H. rewrite (curve_eq env ns j n W E), (curve_eq env' ns j n W E) in H.
  destruct n as [|skip param tfm p|a p|u d tfm ps|nr ps]; [congruence| | | |].
  - exists p, q. split; [simpl; auto|]. split; [auto|]. left. intros K. apply H. unfold node_curve, map_curve. cbn [c_y].
    change (pick (curves env ns) p) with (curve_of env ns p). change (pick (curves env' ns) p) with (curve_of env' ns p). now rewrite K.
  - destruct (W j _ E) as [[k ->] _]. exists p, (q - k)%Qc. split; [simpl; auto|]. split.
    + intros D OD M. cbn [forwards]. destruct (offset_misc k (fun _ => mkC D (fun _ => Ok None) (fun _ _ _ => Ok None) (fun _ _ _ => Ok None) None) 0 q) as [_ _].
      assert (EQ : offset_interval (Fin k) D = t_shift k D).
      { unfold offset_interval, t_shift, offset_x. destruct D as [[x| | |] [z| | |] so eo]; reflexivity. }
      rewrite EQ. replace (Fin q) with (xq_add (Fin (q - k)%Qc) (Fin k)) by (cbn; f_equal; ring). apply shift_imem; auto. discriminate.
    + destruct (dom_changes_dec (curve_of env ns p) (curve_of env' ns p) (q - k)%Qc) as [X|X]; [right; auto|].
      left. intros K. apply H. unfold node_curve, offset_curve. cbn [c_y]. unfold offset_eval.
      change (unoffset_x (Fin k) (Fin q)) with (Fin (q - k)%Qc). apply dom_same in X.
      change (pick (curves env ns) p) with (curve_of env ns p). change (pick (curves env' ns) p) with (curve_of env' ns p).
      rewrite X, K. reflexivity.
  - destruct (any_y ps q) as [[p [I Y]]|Y]; [exists p, q; simpl; auto 6|].
    destruct u.
    + exfalso. apply H. unfold node_curve. rewrite (union_value env d tfm ps q S T), (union_value env' d tfm ps q S' T').
      rewrite (rmapM_ext _ (fun p => c_y (curve_of env ns p) (Fin q))); auto.
    + destruct (any_dom ps q) as [[p [I X]]|X]; [exists p, q; split; [exact I|]; split; [auto|]; right; split; [exact (T p I)|exact X]|].
      exfalso. apply H. unfold node_curve, aggregate. cbn [c_y]. unfold agg_dom. rewrite !inter_contains by auto. rewrite !rmapM_map.
      assert (FB : forallb (fun p => i_contains (c_dom (curve_of env' ns p)) (Fin q)) ps = forallb (fun p => i_contains (c_dom (curve_of env ns p)) (Fin q)) ps).
      { clear -X. induction ps as [|p ps IH]; simpl; auto. rewrite X by (simpl; auto). rewrite IH by (intros; apply X; simpl; auto). reflexivity. }
      rewrite FB. change (fun a : nat => c_y (pick (curves env' ns) a) (Fin q)) with (fun a : nat => c_y (curve_of env' ns a) (Fin q)).
      rewrite (rmapM_ext (fun a => c_y (curve_of env' ns a) (Fin q)) (fun a => c_y (curve_of env ns a) (Fin q))) by auto. reflexivity.
  - destruct (any_y (map fst ps) q) as [[p [I Y]]|Y]; [exists p, q; simpl; auto 6|].
    exfalso. apply H. unfold node_curve, piecewise_curve. cbn [c_y]. clear -Y. induction ps as [|[p v] ps IH]; [reflexivity|].
    cbn [map piecewise_y fst snd]. rewrite IH by (intros z I; apply Y; simpl; auto).
    change (pick (curves env ns) p) with (curve_of env ns p). change (pick (curves env' ns) p) with (curve_of env' ns p).
    rewrite (Y p) by (simpl; auto). reflexivity.
Qed.

Lemma dom_from j n q : nth_error ns j = Some n -> n <> NSource -> local_domain ns j -> dc j q ->
  exists p z, In p (reads n) /\ (forall D, iok D -> imem D (Fin z) -> imem (forwards n D) (Fin q)) /\ local_domain ns p /\ dc p z.
Proof.
  intros E Ns L H. unfold dom_changes in H. rewrite (curve_eq env ns j n W E), (curve_eq env' ns j n W E) in H.
  destruct L as [j E0|j skip param tfm p E0 L|j a p E0 L|j d tfm ps E0 L|j nr ps E0]; rewrite E0 in E; injection E as <-.
  - congruence.
  - exists p, q. simpl. auto.
  - destruct (W j _ E0) as [[k ->] _]. exists p, (q - k)%Qc. split; [simpl; auto|]. split; [|split; [auto|]].
    + intros D OD M. cbn [forwards].
      assert (EQ : offset_interval (Fin k) D = t_shift k D).
      { unfold offset_interval, t_shift, offset_x. destruct D as [[x| | |] [z| | |] so eo]; reflexivity. }
      rewrite EQ. replace (Fin q) with (xq_add (Fin (q - k)%Qc) (Fin k)) by (cbn; f_equal; ring). apply shift_imem; auto. discriminate.
    + intros K. apply H. unfold node_curve, offset_curve. cbn [c_dom].
      change (pick (curves env ns) p) with (curve_of env ns p). change (pick (curves env' ns) p) with (curve_of env' ns p).
      rewrite (proj2 (offset_misc k env p q)) by (apply doms_iok; auto). rewrite (proj2 (offset_misc k env' p q)) by (apply doms_iok; auto). exact K.
  - destruct (any_dom ps q) as [[p [I X]]|X]; [exists p, q; split; [exact I|]; split; [auto|]; split; [exact (L p I)|exact X]|].
    exfalso. apply H. unfold node_curve, aggregate. cbn [c_dom]. unfold agg_dom. rewrite !inter_contains by auto.
    assert (FB : forallb (fun p => i_contains (c_dom (curve_of env' ns p)) (Fin q)) ps = forallb (fun p => i_contains (c_dom (curve_of env ns p)) (Fin q)) ps).
    { clear -X. induction ps as [|p ps IH]; simpl; auto. rewrite X by (simpl; auto). rewrite IH by (intros; apply X; simpl; auto). reflexivity. }
    destruct ps as [|p0 ps]; [reflexivity|exact FB].
  - exfalso. apply H. unfold node_curve, piecewise_curve, piecewise_dom. cbn [c_dom]. rewrite !map_map. reflexivity.
Qed.

End Net.
