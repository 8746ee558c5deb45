(** The points that each curve of a network shows, from the points of the source. *)
From Coq Require Import List ZArith QArith Qcanon Bool Sorting.Sorted Lia Arith.
From Verif Require Import Base Num NumFacts Interval IntervalFacts Curve BaseFacts.
From Verif Require Import Points PointsSpec PointsIdx PointsQuery PointsDom PointsOps PointsHist PointsTop PointsDec.
From Verif Require Import Combine CombineFacts CombineTop Scan ScanFacts ScanSource ScanInv ScanTf ScanTop ScanView Tower TowerFacts TowerTop TowerHist Weave.
Import ListNotations.

(** ** [build] *)
Section Build.
Context {T : Type} {A : Type} (dflt : A) (f : nat -> (nat -> A) -> wnode T -> A).
Lemma build_app ns : forall done ms, build dflt f done (ns ++ ms) = build dflt f (build dflt f done ns) ms.
Proof. induction ns as [|n ns IH]; intros done ms; cbn; auto. Qed.
Lemma build_keeps ns : forall done, exists r, build dflt f done ns = done ++ r /\ length r = length ns.
Proof.
  induction ns as [|n ns IH]; intros done; cbn; [exists []; now rewrite app_nil_r|].
  destruct (IH (done ++ [f (length done) (fun p => nth p done dflt) n])) as (r & E & L).
  exists (f (length done) (fun p => nth p done dflt) n :: r). rewrite E, <- app_assoc. split; [reflexivity|cbn; lia].
Qed.
Lemma build_nth ns : forall done i n, nth_error ns i = Some n ->
  nth (length done + i) (build dflt f done ns) dflt =
  f (length done + i) (fun p => nth p (firstn (length done + i) (build dflt f done ns)) dflt) n.
Proof.
  induction ns as [|n0 ns IH]; intros done i n H; [destruct i; discriminate|]. cbn [build].
  set (done' := done ++ [f (length done) (fun p => nth p done dflt) n0]).
  destruct i as [|i].
  - cbn in H. injection H as ->. rewrite Nat.add_0_r. destruct (build_keeps ns done') as (r & E & _). rewrite E. unfold done'.
    rewrite <- app_assoc, firstn_app, Nat.sub_diag, firstn_all, firstn_O, app_nil_r. rewrite app_nth2, Nat.sub_diag by lia. reflexivity.
  - specialize (IH done' i n H). assert (EL : (length done' + i)%nat = (length done + S i)%nat) by (unfold done'; rewrite app_length; cbn; lia).
    rewrite EL in IH. exact IH.
Qed.
Definition wat (ns : list (wnode T)) (j : nat) : A := nth j (build dflt f [] ns) dflt.
Definition wpick (ns : list (wnode T)) (j p : nat) : A := nth p (firstn j (build dflt f [] ns)) dflt.
Lemma wat_eq ns j n : nth_error ns j = Some n -> wat ns j = f j (wpick ns j) n.
Proof. exact (build_nth ns [] j n). Qed.
Lemma nth_firstn_lt (l : list A) : forall j p, (p < j)%nat -> nth p (firstn j l) dflt = nth p l dflt.
Proof. induction l as [|a l IH]; intros [|j] [|p] L; cbn; auto; try lia. apply IH. lia. Qed.
Lemma wpick_eq ns j p : (p < j)%nat -> wpick ns j p = wat ns p.
Proof. apply nth_firstn_lt. Qed.
Lemma wat_app ns ms j : (j < length ns)%nat -> wat (ns ++ ms) j = wat ns j.
Proof.
  intros L. unfold wat. rewrite build_app. destruct (build_keeps ns []) as (r & E & LR). destruct (build_keeps ms (build dflt f [] ns)) as (r' & E' & _).
  rewrite E'. apply app_nth1. rewrite E. cbn. lia.
Qed.
End Build.

(** ** Networks *)
(** curve 0 is the source; every other curve reads some curves, with smaller numbers *)
Definition wf (ns : list (wnode xq)) : Prop :=
  nth_error ns 0 = Some WBase /\
  forall j n, nth_error ns j = Some n -> (forall p, In p (wreads n) -> (p < j)%nat) /\ (j = 0%nat \/ wreads n <> []).

Lemma wf_below ns j n p : wf ns -> nth_error ns j = Some n -> In p (wreads n) -> (p < j)%nat.
Proof. intros [_ W] H I. now apply (W j n H). Qed.
Lemma wf_node ns j n p : wf ns -> nth_error ns j = Some n -> In p (wreads n) -> exists m, nth_error ns p = Some m.
Proof.
  intros W H I. pose proof (wf_below ns j n p W H I) as L. assert (Lj : (j < length ns)%nat) by (apply nth_error_Some; congruence).
  destruct (nth_error ns p) as [m|] eqn:E; [eauto|]. apply nth_error_None in E. lia.
Qed.
Lemma wf_base ns j : wf ns -> nth_error ns j = Some WBase -> j = 0%nat.
Proof. intros [_ W] H. destruct (W j _ H) as [_ [E|E]]; auto. now destruct E. Qed.

(** ** The lists *)
(* an exception counts as no value *)
Definition tidy (r : res num) : num := match r with Ok v => v | Err _ => None end.
Definition map_val (skip : bool) (tfm : xq -> num -> res num) (x : xq) (v : num) : res num :=
  if skip && (match v with None => true | Some _ => false end) then Ok None else tfm x v.
Definition no_pt : xq * num := (XNaN, None).
Definition node_list (l : list (xq * num)) (_ : nat) (pick : nat -> list (xq * num)) (n : wnode xq) : list (xq * num) :=
  match n with
  | WBase => l
  | WMap skip _ tfm p => map (fun a => (fst a, tidy (map_val skip tfm (fst a) (snd a)))) (pick p)
  | WAgg _ _ tfm ps => map (fun k => (fst (nth k l no_pt), tidy (tfm (fst (nth k l no_pt)) (map (fun p => snd (nth k (pick p) no_pt)) ps)))) (seq 0 (length l))
  | WScan k _ p => img k (pick p)
  end.
Definition w_list (ns : list (wnode xq)) (l : list (xq * num)) (j : nat) : list (xq * num) := wat [] (node_list l) ns j.

Section Lists.
Context (ns : list (wnode xq)) (W : wf ns).
Lemma list_base l : w_list ns l 0 = l.
Proof. unfold w_list. now rewrite (wat_eq _ _ ns 0 WBase) by apply W. Qed.
Lemma list_map l j skip own tfm p : nth_error ns j = Some (WMap skip own tfm p) ->
  w_list ns l j = map (fun a => (fst a, tidy (map_val skip tfm (fst a) (snd a)))) (w_list ns l p).
Proof.
  intros H. unfold w_list. rewrite (wat_eq _ _ ns j _ H). cbn [node_list]. rewrite wpick_eq; [reflexivity|].
  apply (wf_below ns j _ p W H). now left.
Qed.
Lemma list_agg l j un df tfm ps : nth_error ns j = Some (WAgg un df tfm ps) ->
  w_list ns l j = map (fun k => (fst (nth k l no_pt), tidy (tfm (fst (nth k l no_pt)) (map (fun p => snd (nth k (w_list ns l p) no_pt)) ps)))) (seq 0 (length l)).
Proof.
  intros H. unfold w_list at 1. rewrite (wat_eq _ _ ns j _ H). cbn [node_list]. apply map_ext. intros k. do 3 f_equal.
  apply map_ext_in. intros p Ip. rewrite wpick_eq; [reflexivity|]. now apply (wf_below ns j _ p W H).
Qed.
Lemma list_scan l j k own p : nth_error ns j = Some (WScan k own p) -> w_list ns l j = img k (w_list ns l p).
Proof.
  intros H. unfold w_list. rewrite (wat_eq _ _ ns j _ H). cbn [node_list]. rewrite wpick_eq; [reflexivity|].
  apply (wf_below ns j _ p W H). now left.
Qed.

Lemma map_nth_seq {A B} (g : A -> B) (d : A) (l : list A) : map (fun k => g (nth k l d)) (seq 0 (length l)) = map g l.
Proof.
  induction l as [|a l IH]; [reflexivity|]. cbn [length seq map nth]. f_equal. rewrite <- seq_shift, List.map_map. exact IH.
Qed.
Lemma list_xs l j n : nth_error ns j = Some n -> map fst (w_list ns l j) = map fst l.
Proof.
  revert n. induction j as [j IH] using lt_wf_ind. intros n H. destruct n as [|skip own tfm p|un df tfm ps|k own p].
  - rewrite (wf_base ns j W H), list_base. reflexivity.
  - rewrite (list_map l j _ _ _ _ H), List.map_map. cbn [fst].
    assert (I : In p (wreads (WMap skip own tfm p))) by now left. destruct (wf_node ns j _ p W H I) as [m E].
    exact (IH p (wf_below ns j _ p W H I) m E).
  - rewrite (list_agg l j _ _ _ _ H), List.map_map. cbn [fst]. apply map_nth_seq.
  - rewrite (list_scan l j _ _ _ H). unfold img. rewrite image_xs.
    assert (I : In p (wreads (WScan k own p))) by now left. destruct (wf_node ns j _ p W H I) as [m E].
    exact (IH p (wf_below ns j _ p W H I) m E).
Qed.
Lemma list_len l j n : nth_error ns j = Some n -> length (w_list ns l j) = length l.
Proof. intros H. rewrite <- (map_length fst), (list_xs l j n H). apply map_length. Qed.

(** points before a changed interval keep their values in every list *)
Lemma list_keeps D l l' j n : keeps D l l' -> nth_error ns j = Some n -> keeps D (w_list ns l j) (w_list ns l' j).
Proof.
  intros K. revert n. induction j as [j IH] using lt_wf_ind. intros n H.
  assert (IHp : forall p, In p (wreads n) -> keeps D (w_list ns l p) (w_list ns l' p) /\ exists m, nth_error ns p = Some m).
  { intros p I. destruct (wf_node ns j _ p W H I) as [m E]. split; [|eauto]. exact (IH p (wf_below ns j _ p W H I) m E). }
  destruct n as [|skip own tfm p|un df tfm ps|k own p].
  - rewrite (wf_base ns j W H), !list_base. exact K.
  - rewrite !(list_map _ j _ _ _ _ H). intros k L B. rewrite map_length in L. rewrite !firstn_map. f_equal.
    apply (IHp p (or_introl eq_refl)); [exact L|]. intros a Ia. rewrite firstn_map in B.
    exact (B _ (in_map (fun a => (fst a, tidy (map_val skip tfm (fst a) (snd a)))) _ _ Ia)).
  - intros k L B. pose proof (list_len l j _ H) as LL. rewrite LL in L.
    assert (BX : forall m E, nth_error ns m = Some E -> forall a, In a (firstn k (w_list ns l m)) -> before D (fst a)).
    { intros m E Hm a Ia. apply (in_map fst) in Ia. rewrite <- firstn_map, (list_xs l m E Hm), <- (list_xs l j _ H), firstn_map in Ia.
      apply in_map_iff in Ia as (b & Eb & Ib). rewrite <- Eb. now apply B. }
    assert (B0 : forall a, In a (firstn k l) -> before D (fst a)).
    { intros a Ia. apply (BX 0%nat WBase (proj1 W)). now rewrite list_base. }
    pose proof (K k L B0) as E0.
    assert (L' : (k <= length l')%nat) by (apply (f_equal (@length _)) in E0; rewrite !firstn_length in E0; lia).
    rewrite !(list_agg _ j _ _ _ _ H), !firstn_map.
    assert (FS : forall n, (k <= n)%nat -> firstn k (seq 0 n) = seq 0 k).
    { intros m Lm. replace m with (k + (m - k))%nat by lia. rewrite seq_app, firstn_app, seq_length, Nat.sub_diag, firstn_O, app_nil_r.
      apply firstn_all2. rewrite seq_length. lia. }
    rewrite !FS by auto. apply map_ext_in. intros i Ii. apply in_seq in Ii.
    assert (NF : forall (a b : list (xq * num)), firstn k a = firstn k b -> nth i a no_pt = nth i b no_pt).
    { intros a b E. rewrite <- (nth_firstn_lt no_pt a k i), <- (nth_firstn_lt no_pt b k i) by lia. now rewrite E. }
    rewrite (NF _ _ E0). do 3 f_equal. apply map_ext_in. intros p Ip. f_equal. apply NF.
    destruct (IHp p Ip) as [Kp [m Em]]. apply Kp; [now rewrite (list_len l p m Em)|]. now apply (BX p m).
  - rewrite !(list_scan _ j _ _ _ H). apply (image_keeps (layer_G k) (layer_post k) D). apply (IHp p (or_introl eq_refl)).
Qed.
End Lists.

Lemma wf_app ns n : wf (ns ++ [n]) -> ns <> [] -> wf ns.
Proof.
  intros [B W] NE. assert (A : forall j m, nth_error ns j = Some m -> nth_error (ns ++ [n]) j = Some m).
  { intros j m H. rewrite nth_error_app1; auto. apply nth_error_Some. congruence. }
  split; [destruct ns; [congruence|exact B]|]. intros j m H. apply W. auto.
Qed.
Lemma list_app ns ms l j : (j < length ns)%nat -> w_list (ns ++ ms) l j = w_list ns l j.
Proof. apply wat_app. Qed.
