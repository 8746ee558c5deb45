(** set_trend_with_boundary_points (trend.py:398-459) on finite points with
    distinct ascending x: it ends without raising and keeps the two ends of
    the boundary. *)
From Coq Require Import List ZArith QArith Qcanon Bool Lia Sorting.Sorted.
From Verif Require Import Base Num NumFacts Interval Points Trend TrendGeo TrendPred TrendLineInv TrendCol.
Import ListNotations.
Open Scope Qc_scope.

Lemma sub_forall {A} (P : A -> Prop) x l : sub x l -> Forall P l -> Forall P x.
Proof.
  induction 1 as [ | u v w H IH | u v w H IH ]; intro F; [ exact F | exact (IH (Forall_inv_tail F)) | ].
  constructor; [ exact (Forall_inv F) | exact (IH (Forall_inv_tail F)) ].
Qed.
Lemma sub_sorted {A} (R : A -> A -> Prop) x l : sub x l -> StronglySorted R l -> StronglySorted R x.
Proof.
  induction 1 as [ | u v w H IH | u v w H IH ]; intro F; [ exact F | | ]; apply StronglySorted_inv in F; destruct F as [ F1 F2 ]; [ auto | ].
  constructor; [ auto | exact (sub_forall _ _ _ H F2) ].
Qed.

Lemma Qclt_ne (x y : Qc) : x < y -> x <> y.
Proof. intros H ->. revert H. apply Qcle_not_lt, Qcle_refl. Qed.

Section SetTrend.
Variables (eps : Qc) (wd di ln : xq) (up : bool) (mp : Z) (r a : option Qc).
Let g : cfg xq := mkG wd up mp di ln (fo r) (fo a).
Hypothesis (Heps : 0 <= eps).

Lemma on_line_total l p : fst (fst l) <> fst (snd l) -> exists b, on_line (Fin eps) (fo r) (fo a) (fs l) (fp p) = Ok b.
Proof.
  intro H. unfold on_line. cbn [fst snd fp]. rewrite seg_y_slope by exact H. cbn [rbind].
  destruct (within_spec eps r a (snd p) (snd (fst l) + (snd (snd l) - snd (fst l)) / (fst (snd l) - fst (fst l)) * (fst p - fst (fst l))) Heps) as (b & E & _).
  eauto.
Qed.
Lemma coincident_total p q z : fst p <> fst z -> exists b, coincident (Fin eps) (fo r) (fo a) (fp p) (fp q) (fp z) = Ok b.
Proof. intro H. exact (on_line_total (p, z) q H). Qed.

Lemma del_inner {A} (p z : A) m i : (i < length m)%nat -> del (p :: m ++ [z]) (S i) = p :: del m i ++ [z].
Proof.
  intro H. unfold del. change (p :: firstn i (m ++ [z]) ++ skipn (S i) (m ++ [z]) = p :: (firstn i m ++ skipn (S i) m) ++ [z]).
  f_equal. rewrite firstn_app, skipn_app.
  replace (i - length m)%nat with O by lia. replace (S i - length m)%nat with O by lia. change (skipn 0 [z]) with [z]. change (firstn 0 [z]) with (@nil A).
  now rewrite app_nil_r, <- app_assoc.
Qed.
Lemma del_len {A} (m : list A) i : (i < length m)%nat -> S (length (del m i)) = length m.
Proof. intro H. unfold del. rewrite app_length, firstn_length, skipn_length. lia. Qed.
Lemma del_sub {A} (m : list A) i : sub (del m i) m.
Proof.
  unfold del. revert i. induction m as [|x m IH]; intro i; [ destruct i; constructor | ].
  destruct i as [|i]; cbn [firstn skipn app]; [ apply sub_skip, sub_refl | apply sub_take, IH ].
Qed.
Lemma del_map {A B} (f : A -> B) m i : del (map f m) i = map f (del m i).
Proof. unfold del. now rewrite map_app, firstn_map, skipn_map. Qed.
Lemma sub_trans {A} (x y w : list A) : sub x y -> sub y w -> sub x w.
Proof.
  intros H K. revert x H. induction K as [ | b c e K IH | b c e K IH ]; intros x H; [ exact H | apply sub_skip; auto | ].
  inversion H; subst; [ apply sub_skip; auto | apply sub_take; auto ].
Qed.
Lemma sub_ends {A} (p z : A) m m' : sub m' m -> sub (p :: m' ++ [z]) (p :: m ++ [z]).
Proof. intro H. apply sub_take. apply sub_app; [ exact H | apply sub_refl ]. Qed.

(** Three neighbours. *)
Lemma skipn_three {A} (p z : A) m i : (i < length m)%nat ->
  exists p0 p1 p2 l, skipn i (p :: m ++ [z]) = p0 :: p1 :: p2 :: l.
Proof.
  intro H. assert (L : (3 <= length (skipn i (p :: m ++ [z])))%nat) by (rewrite skipn_length; change (length (p :: m ++ [z])) with (S (length (m ++ [z]))); rewrite app_length; change (length [z]) with 1%nat; lia).
  destruct (skipn i (p :: m ++ [z])) as [|p0 [|p1 [|p2 l]]]; cbn in L; try lia. eauto 10.
Qed.
Lemma skipn_sorted (l l' : list qpt) i p q z : StronglySorted by_xs l -> skipn i l = p :: q :: z :: l' -> fst p <> fst z.
Proof.
  intros So E. rewrite <- (firstn_skipn i l), E in So. destruct (asc_app_inv _ _ So) as (_ & S2 & _).
  apply StronglySorted_inv in S2. destruct S2 as [ _ F ]. pose proof (Forall_inv (Forall_inv_tail F)) as H. unfold by_xs in H.
  intro Q. rewrite Q in H. revert H. apply Qcle_not_lt, Qcle_refl.
Qed.

Lemma prune_for_total (p0 z : qpt) (b0 bz : xq * xq) i : forall mid bm co rem,
  StronglySorted by_xs (p0 :: mid ++ [z]) -> (i <= length mid)%nat -> (length mid <= length bm)%nat ->
  exists mid' bm' co' rem',
    prune_for (Fin eps) g i (map fp (p0 :: mid ++ [z]), b0 :: bm ++ [bz], co, rem) =
      Ok (map fp (p0 :: mid' ++ [z]), b0 :: bm' ++ [bz], co', rem') /\
    sub mid' mid /\ sub bm' bm /\ (length mid' <= length bm')%nat /\ (rem' = true -> rem = true \/ (length mid' < length mid)%nat).
Proof.
  induction i as [|i IH]; intros mid bm co rem So Hi Hb.
  - exists mid, bm, co, rem. cbn [prune_for]. repeat split; auto; apply sub_refl.
  - cbn [prune_for]. rewrite skipn_map. destruct (skipn_three p0 z mid i ltac:(lia)) as (q0 & q1 & q2 & l & E). rewrite E. change (map fp (q0 :: q1 :: q2 :: l)) with (fp q0 :: fp q1 :: fp q2 :: map fp l). cbv iota.
    pose proof (skipn_sorted _ _ _ _ _ _ So E) as Ne.
    destruct (coincident_total q0 q1 q2 Ne) as (c & Ec). cbn [g_rel g_abs g]. rewrite Ec. cbn [rbind].
    destruct (convex_total eps r a Heps q0 q1 q2 Ne) as (v & Ev). rewrite Ev. cbn [rbind].
    destruct (c || eqb v (g_upper g)) eqn:Cv.
    + rewrite del_map, (del_inner p0 z mid) by lia.
      assert (So' : StronglySorted by_xs (p0 :: del mid i ++ [z])) by (eapply sub_sorted; [ apply sub_ends, del_sub | exact So ]).
      pose proof (del_len mid i ltac:(lia)) as Lm.
      destruct c.
      * match goal with |- context [ prune_for _ _ _ (_, _, ?co1, _) ] =>
          destruct (IH (del mid i) bm co1 true So' ltac:(lia) ltac:(lia)) as (mid' & bm' & co' & rem' & R & S1 & S2 & Le & Rm) end.
        exists mid', bm', co', rem'. split; [ exact R | ]. split; [ eapply sub_trans; [ exact S1 | apply del_sub ] | ].
        split; [ exact S2 | ]. split; [ exact Le | ]. intros _. right. pose proof (sub_len _ _ S1). lia.
      * rewrite (del_inner b0 bz bm) by lia. pose proof (del_len bm i ltac:(lia)) as Lb.
        match goal with |- context [ prune_for _ _ _ (_, _, ?co1, _) ] =>
          destruct (IH (del mid i) (del bm i) co1 true So' ltac:(lia) ltac:(lia)) as (mid' & bm' & co' & rem' & R & S1 & S2 & Le & Rm) end.
        exists mid', bm', co', rem'. split; [ exact R | ]. split; [ eapply sub_trans; [ exact S1 | apply del_sub ] | ].
        split; [ eapply sub_trans; [ exact S2 | apply del_sub ] | ]. split; [ exact Le | ]. intros _. right. pose proof (sub_len _ _ S1). lia.
    + destruct (IH mid bm co rem So ltac:(lia) Hb) as (mid' & bm' & co' & rem' & R). exists mid', bm', co', rem'. exact R.
Qed.
Lemma ends_len {A} (p z : A) (m : list A) : (length (p :: m ++ [z]) - 2 = length m)%nat.
Proof. cbn [length]. rewrite app_length. cbn. lia. Qed.
Lemma prune_while_total (p0 z : qpt) (b0 bz : xq * xq) f : forall mid bm co,
  StronglySorted by_xs (p0 :: mid ++ [z]) -> (length mid < f)%nat -> (length mid <= length bm)%nat ->
  exists mid' bm' co',
    prune_while (Fin eps) g f (map fp (p0 :: mid ++ [z])) (b0 :: bm ++ [bz]) co =
      Ok (map fp (p0 :: mid' ++ [z]), b0 :: bm' ++ [bz], co') /\ sub mid' mid /\ sub bm' bm.
Proof.
  induction f as [|f IH]; intros mid bm co So Hf Hb; [ lia | ]. cbn [prune_while].
  rewrite map_length, ends_len.
  destruct (prune_for_total p0 z b0 bz (length mid) mid bm co false So ltac:(lia) Hb) as (mid1 & bm1 & co1 & rem1 & R & S1 & S2 & Le & Rm).
  match goal with |- context [ rbind ?X _ ] => replace X with (Ok (map fp (p0 :: mid1 ++ [z]), b0 :: bm1 ++ [bz], co1, rem1) : res (list (pt xq) * list (pt xq) * list (pt xq) * bool)) by (symmetry; exact R) end.
  cbn [rbind]. destruct rem1.
  - destruct (Rm eq_refl) as [ ? | Lt ]; [ discriminate | ].
    assert (So' : StronglySorted by_xs (p0 :: mid1 ++ [z])) by (eapply sub_sorted; [ apply sub_ends, S1 | exact So ]).
    destruct (IH mid1 bm1 co1 So' ltac:(lia) Le) as (mid' & bm' & co' & R' & S3 & S4).
    exists mid', bm', co'. rewrite R'. split; [ reflexivity | ]. split; eapply sub_trans; eauto.
  - exists mid1, bm1, co1. auto.
Qed.
Lemma prune_near_total (p0 z : qpt) i : forall mid, (i <= length mid)%nat ->
  exists mid', prune_near g i (map fp (p0 :: mid ++ [z])) = map fp (p0 :: mid' ++ [z]) /\ sub mid' mid.
Proof.
  induction i as [|i IH]; intros mid Hi; [ exists mid; split; [ reflexivity | apply sub_refl ] | ]. cbn [prune_near].
  rewrite skipn_map. destruct (skipn_three p0 z mid i ltac:(lia)) as (q0 & q1 & q2 & l & E). rewrite E. change (map fp (q0 :: q1 :: q2 :: l)) with (fp q0 :: fp q1 :: fp q2 :: map fp l). cbv iota.
  match goal with |- context [ if ?c then _ else _ ] => destruct c end; [ | apply IH; lia ].
  rewrite del_map, (del_inner p0 z mid) by lia. pose proof (del_len mid i ltac:(lia)).
  destruct (IH (del mid i) ltac:(lia)) as (mid' & R & S1). exists mid'. split; [ exact R | ]. eapply sub_trans; [ exact S1 | apply del_sub ].
Qed.

Definition finp (p : xq * xq) : Prop := exists q, p = fp q.
Lemma fitness_total l : fst (fst l) <> fst (snd l) -> forall ps, Forall finp ps -> forall e, exists f, fitness (fs l) e ps = Ok f.
Proof.
  intros H ps F. induction F as [|p ps (q & ->) F IH]; intros e; [ eexists; reflexivity | ]. cbn [fitness fst fp].
  rewrite seg_y_slope by exact H. cbn [rbind need]. apply IH.
Qed.
Lemma best_line_total bnd : Forall finp bnd -> forall ls best, Forall (fun l : qpt * qpt => fst (fst l) <> fst (snd l)) ls ->
  (ls <> [] \/ best <> None) ->
  exists s, best_line bnd best (map fs ls) = Ok (Some s).
Proof.
  intros F. induction ls as [|l ls IH]; intros best H Ne; cbn [map best_line].
  - destruct best as [[s f]|]; [ eauto | destruct Ne; contradiction ].
  - destruct (fitness_total l (Forall_inv H) bnd F n_zero) as (f & E). rewrite E. cbn [rbind]. apply IH; [ exact (Forall_inv_tail H) | ].
    right. destruct best as [[b fb]|]; [ destruct (_ <? _)%num | ]; discriminate.
Qed.
Lemma pairs_fp (l : list qpt) : pairs (map fp l) = map fs (combine l (List.tl l)).
Proof.
  induction l as [|p l IH]; [ reflexivity | ]. destruct l as [|q l]; [ reflexivity | ].
  cbn [map pairs List.tl combine]. f_equal. exact IH.
Qed.
Lemma pairs_asc (l : list qpt) : StronglySorted by_xs l -> Forall (fun s => fst (fst s) < fst (snd s)) (combine l (List.tl l)).
Proof.
  intro H. induction H as [|p l H IH F]; [ constructor | ]. destruct l as [|q l]; [ constructor | ].
  cbn [List.tl combine]. constructor; [ exact (Forall_inv F) | exact IH ].
Qed.
Lemma keep_total l : fst (fst l) <> fst (snd l) -> forall ps, Forall finp ps -> exists r', keep_on_line (Fin eps) g (fs l) ps = Ok r'.
Proof.
  intros H ps F. induction F as [|p ps (q & ->) F (f & IH)]; [ eexists; reflexivity | ]. cbn [keep_on_line g_rel g_abs g].
  destruct (on_line_total l q H) as (b & E). unfold pt in *. rewrite E. cbn [rbind]. rewrite IH. cbn [rbind]. eauto.
Qed.

(** At least two points: the line runs from one remaining point to a later one,
    and the boundary keeps its ends. *)
Lemma set_trend_total p0 mid z : StronglySorted by_xs (p0 :: mid ++ [z]) ->
  exists u v w bm, set_trend (Fin eps) g (map fp (p0 :: mid ++ [z])) = Ok (fp u :: w ++ [fp v], fp p0 :: bm ++ [fp z])
    /\ fst u < fst v /\ In u (p0 :: mid ++ [z]) /\ In v (p0 :: mid ++ [z]) /\ sub bm (map fp mid) /\ incl w (map fp (p0 :: mid ++ [z])).
Proof.
  intro So. unfold set_trend.
  set (B := map fp (p0 :: mid ++ [z])).
  assert (EB : B = fp p0 :: map fp mid ++ [fp z]) by (unfold B; cbn [map]; now rewrite map_app).
  assert (LB : length B = S (S (length mid))) by (unfold B; rewrite map_length; cbn [length]; rewrite app_length; cbn; lia).
  destruct (prune_while_total p0 z (fp p0) (fp z) (S (length B)) mid (map fp mid) [] So ltac:(lia)) as (mid1 & bm & co & R & S1 & S2);
    [ now rewrite map_length | ].
  fold B in R. rewrite <- EB in R.
  match goal with |- context [ rbind ?X _ ] => replace X with (Ok (map fp (p0 :: mid1 ++ [z]), fp p0 :: bm ++ [fp z], co) : res (list (pt xq) * list (pt xq) * list (pt xq))) by (symmetry; exact R) end.
  cbn [rbind].
  assert (Dr : Forall (fun p => In p B) co /\ Forall (fun p => In p B) (fp p0 :: bm ++ [fp z])).
  { assert (FB : Forall (fun p => In p B) B) by (apply Forall_forall; auto).
    destruct (prune_while_draws (Fin eps) g (fun p => In p B) _ _ _ _ _ _ _ FB FB (Forall_nil _) R) as (_ & Q1 & Q2). split; assumption. }
  destruct Dr as [ Dc Db ].
  assert (Fi : forall l : list (xq * xq), Forall (fun p => In p B) l -> Forall finp l).
  { intros l F. rewrite Forall_forall in F |- *. intros p K. specialize (F p K). unfold B in F. apply in_map_iff in F. destruct F as (q & <- & _). now exists q. }
  rewrite map_length, ends_len.
  destruct (prune_near_total p0 z (length mid1) mid1 ltac:(lia)) as (mid2 & -> & S3).
  assert (So2 : StronglySorted by_xs (p0 :: mid2 ++ [z])).
  { eapply sub_sorted; [ apply sub_ends | exact So ]. eapply sub_trans; eauto. }
  assert (Sub2 : sub (p0 :: mid2 ++ [z]) (p0 :: mid ++ [z])) by (apply sub_ends; eapply sub_trans; eauto).
  assert (Fin : exists u v, match map fp (p0 :: mid2 ++ [z]) with
      | [] | [_] => Ok None | [a; b] => Ok (Some (a, b)) | a :: _ :: _ => best_line (fp p0 :: bm ++ [fp z]) None (pairs (map fp (p0 :: mid2 ++ [z]))) end
      = Ok (Some (fs (u, v))) /\ fst u < fst v /\ In u (p0 :: mid ++ [z]) /\ In v (p0 :: mid ++ [z])).
  { assert (G : forall s, In s (combine (p0 :: mid2 ++ [z]) (List.tl (p0 :: mid2 ++ [z]))) ->
       fst (fst s) < fst (snd s) /\ In (fst s) (p0 :: mid ++ [z]) /\ In (snd s) (p0 :: mid ++ [z])).
    { intros s K. pose proof (pairs_asc _ So2) as Pa. rewrite Forall_forall in Pa. split; [ exact (Pa _ K) | ].
      destruct s as [s1 s2]. split; [ apply in_combine_l in K; exact (sub_in _ _ _ Sub2 K) | ].
      apply in_combine_r in K. apply (sub_in _ _ _ Sub2). right. exact K. }
    destruct mid2 as [|m1 mid2].
    - exists p0, z. cbn [app map]. split; [ reflexivity | ]. apply (G (p0, z)). now left.
    - destruct (best_line_total (fp p0 :: bm ++ [fp z]) (Fi _ Db) (combine (p0 :: (m1 :: mid2) ++ [z]) (List.tl (p0 :: (m1 :: mid2) ++ [z]))) None) as (s & Es).
      + eapply Forall_impl; [ | exact (pairs_asc _ So2) ]. intros s K. exact (Qclt_ne _ _ K).
      + left. discriminate.
      + rewrite <- pairs_fp in Es. pose proof (best_line_in _ _ _ _ Es) as [ K | (f & ?) ]; [ | discriminate ].
        rewrite pairs_fp in K. apply in_map_iff in K. destruct K as ([u v] & <- & K). exists u, v.
        split; [ | exact (G _ K) ].
        cbn [app map] in Es |- *. destruct (map fp (mid2 ++ [z])) eqn:Q; [ destruct mid2; discriminate | ]. exact Es. }
  destruct Fin as (u & v & E & Lt & Iu & Iv).
  match goal with |- context [ rbind ?X _ ] => replace X with (Ok (Some (fs (u, v)))) end.
  cbn [rbind]. destruct (keep_total (u, v) (Qclt_ne _ _ Lt) co (Fi _ Dc)) as (w & Ew).
  rewrite Ew. cbn [rbind fs fst snd]. exists u, v, w, bm. repeat split; auto.
  intros p K. pose proof (keep_draws _ _ (fun p => In p B) _ _ _ Dc Ew) as Kw. rewrite Forall_forall in Kw. exact (Kw p K).
Qed.
End SetTrend.
